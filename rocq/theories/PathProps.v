(** C100 and C101: RenameFile, RemoveFile, DoesFileExist, GetFileSize and GetFileList. *)
Require Import Verif.Common Verif.Text Verif.PathModel.
Require Import Permutation.
Require Verif.FileModel Verif.FileNameModel Verif.FileNameProps.
Import ListNotations.
Local Open Scope Z_scope.

(** ** Specification *)
(** a name of a directory entry *)
Definition proper (c : list Z) : Prop := c <> [] /\ c <> str "." /\ c <> str ".." /\ ~ In 47 c /\ ~ In 0 c.
(** a tree: what has a parent, and the parent is a directory *)
Definition tree (fs : fsys) : Prop :=
  fs [] = Some Dir /\ forall p c, fs (p ++ [c]) <> None -> fs p = Some Dir /\ proper c.
(** the text of an absolute path *)
Definition text (p : loc) : list Z := concat (map (fun c => 47 :: c) p).
(** fs' is fs after everything at and below f went to t *)
Definition moved (fs : fsys) (f t : loc) (fs' : fsys) : Prop :=
  (forall r, fs' (t ++ r) = fs (f ++ r)) /\
  (forall q, ~ (exists r, q = t ++ r) -> (exists r, q = f ++ r) -> fs' q = None) /\
  (forall q, ~ (exists r, q = t ++ r) -> ~ (exists r, q = f ++ r) -> fs' q = fs q).
Definition removed (fs : fsys) (p : loc) (fs' : fsys) : Prop := fs' p = None /\ forall q, q <> p -> fs' q = fs q.

(** ** Paths *)
Lemma split_nonempty : forall s, split s <> [].
Proof. intros [|c r]; cbn [split]; [discriminate|]. destruct (c =? sl); [discriminate|]. destruct (split r); discriminate. Qed.
Lemma split_app_sl : forall a b, split (a ++ sl :: b) = split a ++ split b.
Proof.
  induction a as [|c a IH]; intros b; cbn [app split]; [change (sl =? sl) with true; reflexivity|].
  destruct (c =? sl); [rewrite IH; reflexivity|]. rewrite IH. destruct (split a) as [|x y] eqn:E; [destruct (split_nonempty _ E)|]. reflexivity.
Qed.
Lemma split_slashes : forall k a, split (a ++ repeat sl k) = split a ++ repeat [] k.
Proof.
  induction k as [|k IH]; intros a; cbn [repeat]; [rewrite !app_nil_r; auto|].
  rewrite split_app_sl. change (repeat sl k) with ([] ++ repeat sl k). rewrite IH. reflexivity.
Qed.
Lemma split_plain : forall c, ~ In 47 c -> split c = [c].
Proof.
  induction c as [|x c IH]; intros N; cbn [split]; auto. destruct (Z.eqb_spec x sl) as [->|_]; [exfalso; apply N; left; auto|].
  rewrite IH; [auto|intros I; apply N; right; auto].
Qed.
Lemma split_parts : forall s c x, In c (split s) -> In x c -> In x s /\ x <> 47.
Proof.
  induction s as [|y s IH]; intros c x I J; cbn [split] in I; [destruct I as [<-|[]]; destruct J|].
  destruct (Z.eqb_spec y sl) as [->|N].
  - destruct I as [<-|I]; [destruct J|]. destruct (IH _ _ I J). split; [right; auto|auto].
  - destruct (split s) as [|a l] eqn:E; [destruct (split_nonempty _ E)|]. destruct I as [<-|I].
    + destruct J as [<-|J]; [split; [left; auto|exact N]|]. destruct (IH a x) as [A B]; [left; auto|auto|]. split; [right; auto|auto].
    + destruct (IH c x) as [A B]; [right; auto|auto|]. split; [right; auto|auto].
Qed.
Lemma split_last_empty : forall s, last (split s) [] = [] -> s = [] \/ last s 0 = 47.
Proof.
  induction s as [|c s IH]; intros E; [left; auto|right]. cbn [split] in E. destruct (Z.eqb_spec c sl) as [->|N].
  - change (last ([] :: split s) []) with (match split s with [] => [] | _ :: _ => last (split s) [] end) in E.
    destruct (split s) as [|a l] eqn:S; [destruct (split_nonempty _ S)|]. destruct IH as [->|L]; [exact E|reflexivity|].
    destruct s; [discriminate L|]. exact L.
  - destruct (split s) as [|a l] eqn:S; [destruct (split_nonempty _ S)|]. destruct l as [|b l]; [discriminate E|].
    change (last ((c :: a) :: b :: l) []) with (last (b :: l) []) in E. destruct IH as [->|L]; [exact E|discriminate S|]. destruct s; [discriminate L|]. exact L.
Qed.
Lemma drop_spec : forall r, exists k, r = repeat sl k ++ drop_slashes r /\ (forall d, hd d (drop_slashes r) = sl -> drop_slashes r = [] /\ d = sl).
Proof.
  induction r as [|c r (k & E & H)]; [exists O; split; [auto|intros d D; auto]|]. cbn [drop_slashes]. destruct (Z.eqb_spec c sl) as [->|N].
  - exists (S k). split; [cbn; f_equal; exact E|exact H].
  - exists O. split; [auto|]. intros d D. cbn in D. contradiction.
Qed.
Lemma repeat_rev : forall (A : Type) (x : A) n, rev (repeat x n) = repeat x n.
Proof. intros A x n. induction n as [|n IH]; auto. cbn [repeat rev]. rewrite IH. symmetry. apply repeat_cons. Qed.
Lemma last_rev : forall (l : list Z) d, last (rev l) d = hd d l.
Proof. intros [|a l] d; auto. cbn [rev hd]. apply last_last. Qed.
Lemma trim_spec : forall s, exists k, s = trim s ++ repeat sl k /\ (trim s <> [] -> last (trim s) 0 <> sl).
Proof.
  intros s. destruct (drop_spec (rev s)) as (k & E & H). exists k. unfold trim. split.
  - rewrite <- (rev_involutive s) at 1. rewrite E at 1. rewrite rev_app_distr, repeat_rev. reflexivity.
  - intros N L. rewrite last_rev in L. destruct (H 0 L) as [D _]. apply N. rewrite D. reflexivity.
Qed.
Lemma trim_slash : forall s, trim (s ++ [sl]) = trim s.
Proof. intros s. unfold trim. rewrite rev_app_distr. reflexivity. Qed.
Lemma base_app : forall cwd s r, s <> [] -> base cwd (s ++ r) = base cwd s.
Proof. intros cwd [|c s] r N; [contradiction|reflexivity]. Qed.
Lemma trim_nil_app : forall s, trim s <> [] -> s <> [].
Proof. intros s N ->. apply N. reflexivity. Qed.

(** ** Walking *)
Lemma walk_nil : forall fs n p, walk fs n p [] = Some p.
Proof. intros fs [|n] p; reflexivity. Qed.
Lemma walk_cons : forall fs n p c r, walk fs n p (c :: r) =
  match fs p with
  | Some Dir => match fs (step p c) with
                | Some (Link t) => match n with O => None | S n' => if bytes_dec t [] then None else walk fs n' (base p t) (split t ++ r) end
                | _ => walk fs n (step p c) r
                end
  | _ => None
  end.
Proof. intros fs [|n] p c r; reflexivity. Qed.
Lemma step_nil : forall p, step p [] = p.
Proof. reflexivity. Qed.
Lemma step_name : forall p c, c <> [] -> c <> dot1 -> c <> dot2 -> step p c = p ++ [c].
Proof. intros p c A B C. unfold step. destruct (bytes_dec c []); [contradiction|]. destruct (bytes_dec c dot1); [contradiction|]. destruct (bytes_dec c dot2); [contradiction|auto]. Qed.
Lemma walk_empty : forall fs n p k, fs p = Some Dir -> walk fs n p (repeat [] k) = Some p.
Proof. intros fs n p k D. induction k as [|k IH]; [apply walk_nil|]. cbn [repeat]. rewrite walk_cons, D, step_nil, D. exact IH. Qed.
Lemma walk_empty_not : forall fs n p k, fs p <> Some Dir -> k <> O -> walk fs n p (repeat [] k) = None.
Proof. intros fs n p [|k] D K; [contradiction|]. cbn [repeat]. rewrite walk_cons. destruct (fs p) as [[]|]; auto. contradiction. Qed.
(** what is walked through a prefix *)
Lemma walk_then : forall fs n p xs q ys, walk fs n p xs = Some q -> (forall m, (m <= n)%nat -> walk fs m q ys = walk fs n q ys) ->
  walk fs n p (xs ++ ys) = walk fs n q ys.
Proof.
  intros fs n. induction n as [n IHn] using lt_wf_ind. intros p xs. revert p. induction xs as [|c r IH]; intros p q ys W U.
  - rewrite walk_nil in W. injection W as ->. reflexivity.
  - cbn [app]. rewrite walk_cons in W |- *. destruct (fs p) as [[d| |t| ]|]; try discriminate.
    destruct (fs (step p c)) as [[d| |t| ]|]; try (apply IH; auto; fail). destruct n as [|n]; [discriminate|]. destruct (bytes_dec t []); [discriminate|].
    rewrite app_assoc. rewrite (IHn n ltac:(lia) _ _ q ys W); [apply U; lia|]. intros m Lm. rewrite (U m) by lia. symmetry. apply U. lia.
Qed.
Lemma walk_last : forall fs n p xs q c k, walk fs n p xs = Some q -> fs q = Some Dir -> c <> [] -> c <> dot1 -> c <> dot2 ->
  (forall t, fs (q ++ [c]) <> Some (Link t)) ->
  walk fs n p (xs ++ c :: repeat [] k) = if Nat.eqb k 0 then Some (q ++ [c]) else match fs (q ++ [c]) with Some Dir => Some (q ++ [c]) | _ => None end.
Proof.
  intros fs n p xs q c k W D A B C L.
  assert (U: forall m, walk fs m q (c :: repeat [] k) = if Nat.eqb k 0 then Some (q ++ [c]) else match fs (q ++ [c]) with Some Dir => Some (q ++ [c]) | _ => None end).
  { intros m. rewrite walk_cons, D, step_name by auto. destruct k as [|k].
    - cbn [repeat Nat.eqb]. rewrite walk_nil. destruct (fs (q ++ [c])) as [[d| |t| ]|]; auto. destruct (L t eq_refl).
    - cbn [Nat.eqb]. destruct (fs (q ++ [c])) as [[d| |t| ]|] eqn:E; try (apply walk_empty_not; [rewrite E; discriminate|lia]); [apply walk_empty; auto|destruct (L t eq_refl)]. }
  rewrite (walk_then _ _ _ _ _ _ W); [apply U|]. intros m _. rewrite !U. reflexivity.
Qed.
Lemma walk_drop_empty : forall fs n p xs q, walk fs n p (xs ++ [[]]) = Some q -> walk fs n p xs = Some q.
Proof.
  intros fs n. induction n as [n IHn] using lt_wf_ind. intros p xs. revert p. induction xs as [|c r IH]; intros p q W.
  - cbn [app] in W. rewrite walk_cons, step_nil in W. rewrite walk_nil. destruct (fs p) as [[d| |t| ]|]; try discriminate. rewrite walk_nil in W. exact W.
  - cbn [app] in W. rewrite walk_cons in W |- *. destruct (fs p) as [[d| |t| ]|]; try discriminate.
    destruct (fs (step p c)) as [[d| |t| ]|]; try (apply IH; auto; fail). destruct n as [|n]; [discriminate|]. destruct (bytes_dec t []); [discriminate|].
    rewrite app_assoc in W. apply (IHn n ltac:(lia)) in W. exact W.
Qed.
Lemma stat_slash : forall fs cwd s nd, s <> [] -> stat fs cwd (s ++ [sl]) = Some nd -> stat fs cwd s = Some nd.
Proof.
  intros fs cwd s nd N. unfold stat, resolve. destruct (bytes_dec (s ++ [sl]) []) as [E|_]; [destruct s; discriminate|]. destruct (bytes_dec s []); [contradiction|].
  rewrite base_app by auto. change [sl] with (repeat sl 1). rewrite split_slashes. change (repeat [] 1) with [@nil Z]. intros S.
  destruct (walk fs MAXSYMLINKS (base cwd s) (split s ++ [[]])) as [q|] eqn:W; [|discriminate]. apply walk_drop_empty in W. rewrite W. exact S.
Qed.

(** ** Entries *)
Lemma place_inv : forall fs cwd s t slash, place fs cwd s = Some (t, slash) -> exists q c xs k,
  t = q ++ [c] /\ c <> [] /\ c <> dot1 /\ c <> dot2 /\ ~ In 47 c /\ (forall x, In x c -> In x s) /\ fs q = Some Dir /\
  walk fs MAXSYMLINKS (base cwd s) xs = Some q /\ split s = xs ++ c :: repeat [] k /\ slash = negb (Nat.eqb k 0) /\ s <> [] /\ trim s <> [].
Proof.
  intros fs cwd s t slash P. unfold place in P. destruct (trim_spec s) as (k & E & L). destruct (bytes_dec (trim s) []) as [|T]; [discriminate|].
  set (c := last (split (trim s)) []) in P. destruct (bytes_dec c dot1) as [|A]; [discriminate|]. destruct (bytes_dec c dot2) as [|B]; [discriminate|].
  destruct (walk fs MAXSYMLINKS (base cwd s) (removelast (split (trim s)))) as [q|] eqn:W; [|discriminate]. destruct (fs q) as [[d| |x| ]|] eqn:Q; try discriminate.
  injection P as <- <-. assert (I: In c (split (trim s))) by (rewrite (app_removelast_last [] (split_nonempty (trim s))); apply in_or_app; right; left; auto).
  exists q, c, (removelast (split (trim s))), k. repeat split; auto.
  - intros C. destruct (split_last_empty _ C) as [|X]; [auto|]. apply (L T). exact X.
  - intros J. destruct (split_parts _ _ _ I J) as [_ X]. auto.
  - intros x J. rewrite E. apply in_or_app. left. apply (split_parts _ _ _ I J).
  - rewrite E at 1. rewrite split_slashes. rewrite (app_removelast_last [] (split_nonempty (trim s))) at 1. fold c. rewrite <- app_assoc. reflexivity.
  - destruct k as [|k]; cbn [Nat.eqb negb].
    + apply Nat.ltb_ge. rewrite E at 1. rewrite app_length. cbn. lia.
    + apply Nat.ltb_lt. rewrite E at 2. rewrite app_length, repeat_length. lia.
  - intros X. apply T. rewrite X. reflexivity.
Qed.
Lemma place_stat : forall fs cwd s t slash nd, place fs cwd s = Some (t, slash) -> fs t = Some nd -> (forall x, nd <> Link x) -> (slash = true -> nd = Dir) -> stat fs cwd s = Some nd.
Proof.
  intros fs cwd s t slash nd P F L S. destruct (place_inv _ _ _ _ _ P) as (q & c & xs & k & -> & A & B & C & _ & _ & D & W & E & -> & N & _).
  unfold stat, resolve. destruct (bytes_dec s []); [contradiction|]. rewrite E. rewrite (walk_last _ _ _ _ _ _ _ W D A B C); [|intros x; rewrite F; intros X; injection X as X; exact (L x X)].
  destruct k as [|k]; cbn [Nat.eqb]; [exact F|]. rewrite F. rewrite (S eq_refl) in *. exact F.
Qed.
Lemma place_stat_none : forall fs cwd s t slash, place fs cwd s = Some (t, slash) -> fs t = None -> stat fs cwd s = None.
Proof.
  intros fs cwd s t slash P F. destruct (place_inv _ _ _ _ _ P) as (q & c & xs & k & -> & A & B & C & _ & _ & D & W & E & -> & N & _).
  unfold stat, resolve. destruct (bytes_dec s []); [contradiction|]. rewrite E. rewrite (walk_last _ _ _ _ _ _ _ W D A B C); [|intros x; rewrite F; discriminate].
  destruct k as [|k]; cbn [Nat.eqb]; [exact F|]. rewrite F. reflexivity.
Qed.
Lemma place_slash : forall fs cwd s t slash, place fs cwd (s ++ [sl]) = Some (t, slash) -> s <> [] /\ exists slash', place fs cwd s = Some (t, slash') /\ (slash' = true -> slash = true).
Proof.
  intros fs cwd s t slash P. pose proof (place_inv _ _ _ _ _ P) as (q & c & xs & k & _ & _ & _ & _ & _ & _ & _ & _ & _ & Sk & _ & T). rewrite trim_slash in T.
  pose proof (trim_nil_app _ T) as N. split; [auto|]. unfold place in *. rewrite trim_slash in P. rewrite base_app in P by auto.
  destruct (bytes_dec (trim s) []); [discriminate|]. destruct (bytes_dec (last (split (trim s)) []) dot1); [discriminate|]. destruct (bytes_dec (last (split (trim s)) []) dot2); [discriminate|].
  destruct (walk fs MAXSYMLINKS (base cwd s) (removelast (split (trim s)))) as [z|]; [|discriminate]. destruct (fs z) as [[d| |x| ]|]; try discriminate. injection P as <- X.
  eexists. split; [reflexivity|]. intros Y. rewrite <- X. apply Nat.ltb_lt. apply Nat.ltb_lt in Y. rewrite app_length. lia.
Qed.

(** ** The path that DoesFileExist looks at *)
Lemma cut_id : forall s, ~ In 0 s -> FileModel.cut s = s.
Proof. induction s as [|c s IH]; intros N; cbn; auto. destruct (Z.eqb_spec c 0) as [->|_]; [exfalso; apply N; left; auto|]. rewrite IH; auto. intros I. apply N. right. auto. Qed.
Lemma cut_app0 : forall a b, In 0 a -> FileModel.cut (a ++ b) = FileModel.cut a.
Proof. induction a as [|c a IH]; intros b I; [destruct I|]. cbn. destruct (Z.eqb_spec c 0) as [|N]; auto. rewrite IH; auto. destruct I; [contradiction|auto]. Qed.
Lemma cut_no0 : forall s, ~ In 0 (FileModel.cut s).
Proof. induction s as [|c s IH]; cbn; [tauto|]. destruct (Z.eqb_spec c 0); [tauto|]. intros [|]; auto. Qed.
Definition names (path e : list Z) : Prop := FileModel.cut path = e \/ (FileModel.cut path = path /\ path = e ++ str "/").
Lemma exist_inv : forall fs cwd path, path <> [] -> last path 0 <> 92 -> exists e, names path e /\
  (last path 0 <> 47 -> e = FileModel.cut path) /\ (DoesFileExist fs cwd path = true <-> stat fs cwd e <> None).
Proof.
  intros fs cwd path N B. unfold DoesFileExist. destruct path as [|c0 r] eqn:P; [contradiction|]. rewrite <- P in *. clear P c0 r N.
  destruct (Z.eqb_spec (last path 0) 92); [contradiction|]. rewrite orb_false_r. destruct (Z.eqb_spec (last path 0) 47) as [L|L].
  - assert (X: path = removelast path ++ [47]). { rewrite <- L. apply app_removelast_last. intros ->. discriminate L. }
    exists (FileModel.cut (removelast path)). split; [|split; [intros; contradiction|destruct (stat fs cwd (FileModel.cut (removelast path))); split; congruence]].
    unfold names. destruct (in_dec Z.eq_dec 0 (removelast path)) as [I|I]; [left; rewrite X at 1; apply cut_app0; auto|right].
    rewrite (cut_id _ I). split; [|exact X]. apply cut_id. rewrite X. intros J. apply in_app_or in J. destruct J as [J|[J|[]]]; [auto|discriminate J].
  - exists (FileModel.cut path). split; [left; auto|]. split; [auto|]. destruct (stat fs cwd (FileModel.cut path)); split; congruence.
Qed.

(** ** Moving *)
Lemma under_app : forall p r, under p (p ++ r) = Some r.
Proof. induction p as [|a p IH]; intros r; cbn; auto. destruct (bytes_dec a a); [apply IH|contradiction]. Qed.
Lemma under_some : forall p q r, under p q = Some r -> q = p ++ r.
Proof. induction p as [|a p IH]; intros [|b q] r E; cbn in *; try discriminate; try congruence. destruct (bytes_dec a b) as [->|]; [|discriminate]. f_equal. auto. Qed.
Lemma under_none : forall p q, under p q = None <-> ~ exists r, q = p ++ r.
Proof.
  intros p q. split.
  - intros E (r & ->). rewrite under_app in E. discriminate.
  - intros N. destruct (under p q) as [r|] eqn:E; auto. exfalso. apply N. exists r. apply under_some. auto.
Qed.
Lemma move_moved : forall fs f t, moved fs f t (move fs f t).
Proof.
  intros fs f t. unfold moved, move. split; [|split].
  - intros r. rewrite under_app. auto.
  - intros q A (r & ->). apply under_none in A. rewrite A, under_app. auto.
  - intros q A B. apply under_none in A, B. rewrite A, B. auto.
Qed.
Lemma moved_self : forall fs t, moved fs t t fs.
Proof. intros fs t. split; [auto|]. split; [intros q A B; contradiction|auto]. Qed.
Lemma snoc_under : forall (t p : loc) c r, p ++ [c] = t ++ r -> (r = [] /\ t = p ++ [c]) \/ exists r' x, r = r' ++ [x] /\ p = t ++ r' /\ c = x.
Proof.
  intros t p c r E. destruct r as [|y r] using rev_ind; [left; rewrite app_nil_r in E; auto|right]. clear IHr. rewrite app_assoc in E. apply app_inj_tail in E. destruct E as [-> ->]. eauto.
Qed.
Lemma moved_tree : forall fs f t c q, tree fs -> t = q ++ [c] -> proper c -> fs q = Some Dir -> f <> [] -> ~ (exists r, t = f ++ r) -> tree (move fs f t).
Proof.
  intros fs f t c q [R T] Et Pc Q Nf Nu. pose proof (move_moved fs f t) as (M1 & M2 & M3). set (fs' := move fs f t) in *. clearbody fs'.
  assert (Nt: t <> []) by (rewrite Et; destruct q; discriminate).
  split.
  - rewrite M3; auto; intros (r & E); symmetry in E; apply app_eq_nil in E; destruct E; auto.
  - intros p d H. destruct (under t (p ++ [d])) as [r|] eqn:U.
    + apply under_some in U. rewrite U in H. rewrite M1 in H. destruct (snoc_under _ _ _ _ U) as [[-> E]|(r' & x & -> & -> & ->)].
      * rewrite Et in E. apply app_inj_tail in E. destruct E as [-> ->]. split; [|auto]. rewrite M3; auto.
        -- intros (r & X). rewrite Et in X. apply (f_equal (@length _)) in X. rewrite !app_length in X. cbn in X. lia.
        -- intros (r & X). apply Nu. exists (r ++ [d]). rewrite Et, X, <- app_assoc. auto.
      * rewrite app_assoc in H. apply T in H. destruct H as [H P]. split; [rewrite M1; auto|auto].
    + apply under_none in U. assert (Ut: ~ exists r, p = t ++ r) by (intros (r & ->); apply U; exists (r ++ [d]); rewrite <- app_assoc; auto).
      destruct (under f (p ++ [d])) as [r|] eqn:V; [exfalso; apply H; apply M2; auto; exists r; apply under_some; auto|]. apply under_none in V.
      assert (Uf: ~ exists r, p = f ++ r) by (intros (r & ->); apply V; exists (r ++ [d]); rewrite <- app_assoc; auto).
      rewrite M3 in H by auto. rewrite M3 by auto. apply T. auto.
Qed.

(** ** C100 *)
(** what an absolute path without links means to the kernel, and to GetFileSize *)
Lemma split_text : forall p, Forall proper p -> p <> [] -> split (text p) = [] :: p.
Proof.
  intros p F _. unfold text. assert (G: forall p a, Forall proper p -> ~ In 47 a -> split (a ++ concat (map (fun c => 47 :: c) p)) = a :: p).
  { induction p0 as [|c p0 IH]; intros a F0 N; cbn [map concat]; [rewrite app_nil_r; apply split_plain; auto|]. inversion_clear F0.
    change ((47 :: c) ++ concat (map (fun c => 47 :: c) p0)) with (sl :: (c ++ concat (map (fun c => 47 :: c) p0))). rewrite split_app_sl, split_plain by auto. rewrite IH by (auto; apply H). auto. }
  apply (G p []); auto.
Qed.
Lemma walk_dirs : forall fs xs p n, Forall proper xs -> (forall i, (i <= length xs)%nat -> fs (p ++ firstn i xs) = Some Dir) -> walk fs n p xs = Some (p ++ xs).
Proof.
  induction xs as [|c xs IH]; intros p n F D; [rewrite walk_nil, app_nil_r; auto|]. inversion_clear F as [|? ? Pc Ps]. destruct Pc as (A & B & C & _). rewrite walk_cons.
  pose proof (D O ltac:(cbn; lia)) as D0. cbn [firstn] in D0. rewrite app_nil_r in D0. rewrite D0, step_name by auto. pose proof (D 1%nat ltac:(cbn; lia)) as D1. cbn [firstn] in D1. rewrite D1.
  rewrite IH; auto. + rewrite <- app_assoc. auto. + intros i L. rewrite <- app_assoc. apply (D (S i)). cbn. lia.
Qed.
Lemma text_no0 : forall p, Forall proper p -> ~ In 0 (text p).
Proof. induction p as [|c p IH]; intros F; [intros []|]. inversion_clear F as [|? ? Pc Ps]. unfold text in *. cbn [map concat app]. intros [E|I]; [discriminate|]. apply in_app_or in I. destruct I; [apply Pc in H; auto|apply IH; auto]. Qed.
Lemma text_snoc : forall q c, text (q ++ [c]) = text q ++ 47 :: c.
Proof. intros q c. unfold text. rewrite map_app, concat_app. cbn. rewrite app_nil_r. auto. Qed.
Lemma tree_dirs : forall fs q, tree fs -> fs q = Some Dir -> Forall proper q /\ forall i, (i <= length q)%nat -> fs (firstn i q) = Some Dir.
Proof.
  intros fs q [R T]. induction q as [|c q IH] using rev_ind; intros D; [split; [constructor|]; intros i _; rewrite firstn_nil; auto|].
  destruct (T q c) as [Q Pc]; [rewrite D; discriminate|]. destruct (IH Q) as [F G]. split; [apply Forall_app; auto|]. intros i L. rewrite app_length in L. cbn in L.
  destruct (Nat.eq_dec i (S (length q))) as [->|Ne].
  - rewrite firstn_all2; [auto|rewrite app_length; cbn; lia].
  - rewrite firstn_app. replace (i - length q)%nat with O by lia. rewrite app_nil_r. apply G. lia.
Qed.
Theorem C100_plain : forall fs cwd q c, tree fs -> fs q = Some Dir -> proper c ->
  place fs cwd (text (q ++ [c])) = Some (q ++ [c], false) /\
  ((forall t, fs (q ++ [c]) <> Some (Link t)) -> stat fs cwd (text (q ++ [c])) = fs (q ++ [c])) /\
  (forall d dsize, fs (q ++ [c]) = Some (File d) -> GetFileSize dsize fs cwd (text (q ++ [c])) = Ok (zlen d)).
Proof.
  intros fs cwd q c Tr D Pc. destruct (tree_dirs _ _ Tr D) as [F G]. assert (F': Forall proper (q ++ [c])) by (apply Forall_app; auto).
  assert (N: q ++ [c] <> []) by (destruct q; discriminate). pose proof (split_text _ F' N) as S.
  assert (Lc: last (text (q ++ [c])) 0 <> sl). { rewrite text_snoc. destruct Pc as (A & _ & _ & A47 & _). rewrite (app_removelast_last 0 A). change (47 :: removelast c ++ [last c 0]) with ((47 :: removelast c) ++ [last c 0]). rewrite app_assoc, last_last. intros E. apply A47. rewrite (app_removelast_last 0 A). apply in_or_app. right. left. auto. }
  assert (Tn: text (q ++ [c]) <> []) by (rewrite text_snoc; destruct (text q); discriminate).
  assert (Tm: trim (text (q ++ [c])) = text (q ++ [c])).
  { destruct (trim_spec (text (q ++ [c]))) as ([|k] & E & _); [rewrite app_nil_r in E; auto|]. exfalso. apply Lc. rewrite E. cbn [repeat]. rewrite repeat_cons, app_assoc. apply last_last. }
  assert (B: base cwd (text (q ++ [c])) = []) by (rewrite text_snoc; destruct q; reflexivity).
  assert (W: walk fs MAXSYMLINKS [] ([] :: q) = Some q). { rewrite walk_cons, step_nil. destruct Tr as [R _]. rewrite R. rewrite walk_dirs; auto. }
  assert (Pl: place fs cwd (text (q ++ [c])) = Some (q ++ [c], false)).
  { unfold place. rewrite Tm. destruct (bytes_dec (text (q ++ [c])) []); [contradiction|]. rewrite S. change ([] :: q ++ [c]) with (([] :: q) ++ [c]). rewrite last_last, removelast_last.
    destruct Pc as (A & B1 & B2 & _). destruct (bytes_dec c dot1); [contradiction|]. destruct (bytes_dec c dot2); [contradiction|]. rewrite B, W, D. rewrite Nat.ltb_irrefl. auto. }
  assert (St: (forall t, fs (q ++ [c]) <> Some (Link t)) -> stat fs cwd (text (q ++ [c])) = fs (q ++ [c])).
  { intros L. destruct (fs (q ++ [c])) as [nd|] eqn:E; [|apply (place_stat_none _ _ _ _ _ Pl E)]. apply (place_stat _ _ _ _ _ _ Pl E); [|discriminate]. intros x ->. exact (L x eq_refl). }
  split; [exact Pl|]. split; [exact St|]. intros d dsize E. unfold GetFileSize. rewrite cut_id by (apply text_no0; auto). rewrite St, E; [auto|]. intros t. rewrite E. discriminate.
Qed.

(** GetFileSize succeeds for what stat finds *)
Theorem C100_size : forall dsize fs cwd name, match stat fs cwd (FileModel.cut name) with
  | Some (File d) => GetFileSize dsize fs cwd name = Ok (Z.of_nat (length d))
  | Some nd => GetFileSize dsize fs cwd name = Ok (dsize nd)
  | None => GetFileSize dsize fs cwd name = Exn end.
Proof. intros. unfold GetFileSize. destruct (stat fs cwd (FileModel.cut name)) as [[d| |t| ]|]; auto. Qed.

(** DoesFileExist: exact for a path that ends with neither slash nor backslash; a slash at the end of a path that names something does not matter *)
Theorem C100_exists : forall fs cwd path, last path 0 <> 92 ->
  (last path 0 <> 47 -> (DoesFileExist fs cwd path = true <-> stat fs cwd (FileModel.cut path) <> None)) /\
  (path <> str "/" -> stat fs cwd (FileModel.cut path) <> None -> DoesFileExist fs cwd path = true) /\
  (DoesFileExist fs cwd path = true -> exists e, names path e /\ stat fs cwd e <> None).
Proof.
  intros fs cwd path B. destruct path as [|c0 r] eqn:P.
  - split; [|split]; [intros _; cbn; split; [discriminate|intros H; exfalso; apply H; reflexivity]|intros _ H; exfalso; apply H; reflexivity|discriminate].
  - rewrite <- P in *. assert (N: path <> []) by (rewrite P; discriminate). clear P c0 r. destruct (exist_inv fs cwd path N B) as (e & Ne & L & D). split; [|split].
    + intros X. rewrite D, (L X). tauto.
    + intros X S. apply D. destruct Ne as [<-|[E1 E]]; auto. rewrite E1 in S. destruct (stat fs cwd path) as [nd|] eqn:F; [|contradiction]. rewrite E in F.
      destruct (list_eq_dec Z.eq_dec e []) as [->|En]; [contradiction|]. rewrite (stat_slash _ _ _ _ En F). discriminate.
    + intros X. exists e. split; [auto|]. apply D. auto.
Qed.
(** a symbolic link at t to nothing: stat of the path fails *)
Definition dangling (fs : fsys) (cwd t : loc) (path : list Z) : Prop := (exists x, fs t = Some (Link x)) /\ stat fs cwd (FileModel.cut path) = None.
Lemma place_proper : forall fs cwd s t slash, place fs cwd (FileModel.cut s) = Some (t, slash) -> exists q c, t = q ++ [c] /\ proper c /\ fs q = Some Dir.
Proof.
  intros fs cwd s t slash P. destruct (place_inv _ _ _ _ _ P) as (q & c & xs & k & -> & A & B & C & S & I & D & _). exists q, c. split; [auto|]. split; [|auto].
  repeat split; auto. intros J. apply I in J. exact (cut_no0 _ J).
Qed.
(** RenameFile, nobody interfering: it throws and changes nothing, or the name [to] named nothing and what [from] named is there now with all below it, nothing else changed *)
Theorem C100_rename : forall empty fs cwd from to ok r fs', tree fs -> last to 0 <> 92 -> RenameFile empty fs cwd from to (fun x => x) ok = (r, fs') ->
  (r = Exn /\ fs' = fs) \/
  (r = Ok tt /\ exists f t sf st, place fs cwd (FileModel.cut from) = Some (f, sf) /\ place fs cwd (FileModel.cut to) = Some (t, st) /\ fs f <> None /\
     (fs t = None \/ dangling fs cwd t to) /\ moved fs f t fs' /\ tree fs').
Proof.
  intros empty fs cwd from to ok r fs' Tr B E. unfold RenameFile in E. destruct (DoesFileExist fs cwd to) eqn:X; [injection E as <- <-; auto|].
  unfold sys_rename in E. destruct (place fs cwd (FileModel.cut from)) as [[f sf]|] eqn:Pf; [|injection E as <- <-; auto].
  destruct (place fs cwd (FileModel.cut to)) as [[t st]|] eqn:Pt; [|injection E as <- <-; auto]. destruct (fs f) as [nf|] eqn:F; [|injection E as <- <-; auto].
  set (isdir := match nf with Dir => true | _ => false end) in E. destruct ((sf || st) && negb isdir) eqn:G; [injection E as <- <-; auto|].
  assert (S: (st = true -> fs t = Some Dir) -> forall nd, fs t = Some nd -> (forall x, nd <> Link x) -> False).
  { intros Sd nd Ft NL. destruct (list_eq_dec Z.eq_dec to []) as [->|Nt]; [cbn in Pt; discriminate|].
    destruct (exist_inv fs cwd to Nt B) as (e & Ne & _ & D). assert (Y: stat fs cwd e = Some nd); [|apply diff_false_true; rewrite <- X; apply D; rewrite Y; discriminate].
    destruct Ne as [<-|[E1 E2]].
    - apply (place_stat _ _ _ _ _ _ Pt Ft NL). intros Q. apply Sd in Q. congruence.
    - rewrite E1 in Pt. rewrite E2 in Pt. destruct (place_slash _ _ _ _ _ Pt) as (_ & s' & Ps & Is). apply (place_stat _ _ _ _ _ _ Ps Ft NL). intros Q. apply Is, Sd in Q. congruence. }
  assert (Fr: (st = true -> fs t = Some Dir \/ fs t = None \/ exists x, fs t = Some (Link x)) -> fs t = None \/ dangling fs cwd t to).
  { intros Sd. destruct (fs t) as [nd|] eqn:Ft; [right|auto]. assert (NL: exists x, nd = Link x).
    { destruct nd as [d| |x| ]; try (exists x; reflexivity); exfalso; (eapply S; [|reflexivity|discriminate]; intros Q; destruct (Sd Q) as [Y|[Y|[x Y]]]; congruence). }
    destruct NL as [x ->]. split; [exists x; auto|]. destruct (list_eq_dec Z.eq_dec to []) as [->|Nt]; [reflexivity|]. destruct (exist_inv fs cwd to Nt B) as (e & Ne & _ & D).
    assert (Y: stat fs cwd e = None). { destruct (stat fs cwd e) as [z|] eqn:Z0; auto. exfalso. apply diff_false_true. rewrite <- X. apply D. discriminate. }
    destruct Ne as [<-|[E1 E2]]; [auto|]. rewrite E1. destruct (stat fs cwd to) as [z|] eqn:Z0; auto. rewrite E2 in Z0. rewrite E1, E2 in Pt. destruct (place_slash _ _ _ _ _ Pt) as (N0 & _). rewrite (stat_slash _ _ _ _ N0 Z0) in Y. discriminate. }
  destruct (loc_dec f t) as [->|Nft].
  { destruct ok; [|injection E as <- <-; auto]. injection E as <- <-. right. split; [auto|]. exists t, t, sf, st. split; [auto|]. split; [auto|]. split; [rewrite F; discriminate|]. split; [|split; [apply moved_self|exact Tr]].
    apply Fr. intros ->. rewrite orb_true_r in G. cbn in G. subst isdir. destruct nf; try discriminate. auto. }
  destruct (under f t) as [u|] eqn:U; [injection E as <- <-; auto|]. apply under_none in U. destruct ok; [|injection E as <- <-; auto]. cbn [andb] in E.
  destruct (place_proper _ _ _ _ _ Pt) as (q & c & Et & Pc & Q). destruct (place_proper _ _ _ _ _ Pf) as (qf & cf & Ef & _ & _).
  assert (Hm: tree (move fs f t)) by (apply (moved_tree _ _ _ c q); auto; rewrite Ef; destruct qf; discriminate).
  destruct (fs t) as [nt|] eqn:Ft.
  - destruct (match nt with Dir => isdir && empty fs t | _ => negb isdir end) eqn:Fre.
    + assert (R: (Ok tt, move fs f t) = (r, fs')). { clear Fr S; clearbody isdir; destruct nt; first [exact E | rewrite Fre in E; exact E]. } injection R as <- <-. right. split; [auto|]. exists f, t, sf, st. split; [auto|]. split; [auto|]. split; [rewrite F; discriminate|]. split; [|split; [apply move_moved|exact Hm]].
      rewrite Ft. apply Fr. intros ->. rewrite orb_true_r in G. cbn in G. destruct isdir; [|discriminate]. destruct nt; try discriminate. auto.
    + assert (R: (@Exn unit, fs) = (r, fs')). { clear Fr S; clearbody isdir; destruct nt; first [exact E | rewrite Fre in E; exact E]. } injection R as <- <-. auto.
  - injection E as <- <-. right. split; [auto|]. exists f, t, sf, st. split; [auto|]. split; [auto|]. split; [rewrite F; discriminate|]. split; [auto|]. split; [apply move_moved|exact Hm].
Qed.
(** and it succeeds when nothing is at [to], something is at [from], [to] is not below [from] and the system does not refuse *)
Theorem C100_rename_succeeds : forall empty fs cwd from to f t sf st nd, last to 0 <> 92 ->
  place fs cwd (FileModel.cut from) = Some (f, sf) -> place fs cwd (FileModel.cut to) = Some (t, st) -> fs f = Some nd -> fs t = None ->
  (sf = true \/ st = true -> nd = Dir) -> ~ (exists r, t = f ++ r) -> fst (RenameFile empty fs cwd from to (fun x => x) true) = Ok tt.
Proof.
  intros empty fs cwd from to f t sf st nd B Pf Pt F T Sd U. unfold RenameFile. destruct (DoesFileExist fs cwd to) eqn:X.
  - exfalso. destruct (list_eq_dec Z.eq_dec to []) as [->|Nt]; [discriminate X|]. destruct (exist_inv fs cwd to Nt B) as (e & Ne & _ & D). apply D in X; auto. destruct Ne as [<-|[E1 E2]].
    + apply X. apply (place_stat_none _ _ _ _ _ Pt T).
    + rewrite E1, E2 in Pt. destruct (place_slash _ _ _ _ _ Pt) as (_ & s' & Ps & _). apply X. apply (place_stat_none _ _ _ _ _ Ps T).
  - unfold sys_rename. rewrite Pf, Pt, F, T. assert (G: (sf || st) && negb (match nd with Dir => true | _ => false end) = false).
    { destruct sf, st; cbn; auto; rewrite Sd by auto; auto. } rewrite G. destruct (loc_dec f t) as [->|_]; [congruence|]. apply under_none in U. rewrite U. reflexivity.
Qed.
(** RemoveFile: it throws and changes nothing, or a name of something that is not a directory is gone, and nothing else (a link is removed, not what it names) *)
Theorem C100_remove : forall fs cwd name ok r fs', tree fs -> RemoveFile fs cwd name ok = (r, fs') ->
  (r = Exn /\ fs' = fs) \/
  (r = Ok tt /\ exists p nd, place fs cwd (FileModel.cut name) = Some (p, false) /\ fs p = Some nd /\ nd <> Dir /\ removed fs p fs' /\ tree fs').
Proof.
  intros fs cwd name ok r fs' Tr E. unfold RemoveFile, sys_unlink in E. destruct (place fs cwd (FileModel.cut name)) as [[p slash]|] eqn:P; [|injection E as <- <-; auto].
  destruct (fs p) as [nd|] eqn:F; [|injection E as <- <-; auto]. assert (D: nd = Dir \/ nd <> Dir) by (destruct nd; auto; right; discriminate).
  destruct D as [->|D]; [injection E as <- <-; auto|].
  assert (E': (if ok && negb slash then (Ok tt, fun q => if loc_dec q p then None else fs q) else (Exn, fs)) = (r, fs')) by (destruct nd; try contradiction; destruct (ok && negb slash); exact E).
  clear E. destruct (ok && negb slash) eqn:O; [|injection E' as <- <-; auto]. injection E' as <- <-. right. split; [auto|]. apply andb_true_iff in O. destruct O as [_ O]. destruct slash; [discriminate|].
  exists p, nd. split; [auto|]. split; [auto|]. split; [auto|]. destruct Tr as [R T]. split.
  - split; [destruct (loc_dec p p); [auto|contradiction]|intros q N; destruct (loc_dec q p); [contradiction|auto]].
  - split.
    + destruct (loc_dec [] p) as [<-|_]; [congruence|auto].
    + intros q c H. destruct (loc_dec (q ++ [c]) p); [contradiction|]. destruct (T _ _ H) as [Q Pc]. split; [|auto]. destruct (loc_dec q p) as [->|_]; [congruence|auto].
Qed.
Theorem C100_remove_succeeds : forall fs cwd name p nd, place fs cwd (FileModel.cut name) = Some (p, false) -> fs p = Some nd -> nd <> Dir ->
  fst (RemoveFile fs cwd name true) = Ok tt.
Proof. intros fs cwd name p nd P F D. unfold RemoveFile, sys_unlink. rewrite P, F. destruct nd; auto. contradiction. Qed.

(** a concrete tree: /a (a file), /d/b (a file), /d/c/e (a file) *)
Fixpoint of_list (l : list (loc * node)) : fsys := fun q =>
  match l with [] => None | (p, n) :: l => if loc_dec q p then Some n else of_list l q end.
Lemma of_list_in : forall l q n, of_list l q = Some n -> In (q, n) l.
Proof. induction l as [|[p m] l IH]; intros q n E; cbn in E; [discriminate|]. destruct (loc_dec q p) as [->|]; [injection E as ->; left; auto|right; auto]. Qed.
Lemma of_list_tree : forall l, of_list l [] = Some Dir ->
  Forall (fun pn => fst pn <> [] -> of_list l (removelast (fst pn)) = Some Dir /\ proper (last (fst pn) [])) l -> tree (of_list l).
Proof.
  intros l R F. split; [auto|]. intros p c H. destruct (of_list l (p ++ [c])) as [n|] eqn:E; [|contradiction]. apply of_list_in in E. rewrite Forall_forall in F. apply F in E. cbn [fst] in E.
  rewrite removelast_last, last_last in E. apply E. destruct p; discriminate.
Qed.
Lemma proper_by : forall c, (if bytes_dec c [] then false else if bytes_dec c dot1 then false else if bytes_dec c dot2 then false else if in_dec Z.eq_dec 47 c then false else if in_dec Z.eq_dec 0 c then false else true) = true -> proper c.
Proof.
  intros c. destruct (bytes_dec c []); [discriminate|]. destruct (bytes_dec c dot1); [discriminate|]. destruct (bytes_dec c dot2); [discriminate|]. destruct (in_dec Z.eq_dec 47 c); [discriminate|]. destruct (in_dec Z.eq_dec 0 c); [discriminate|]. intros _. repeat split; auto.
Qed.
Ltac tree_tac := apply of_list_tree; [reflexivity|]; repeat (apply Forall_cons; [intros N; first [exfalso; apply N; reflexivity|split; [reflexivity|apply proper_by; reflexivity]]|]); apply Forall_nil.
Definition ex_fs : fsys := of_list [([], Dir); ([str "a"], File (str "one")); ([str "d"], Dir); ([str "d"; str "b"], File (str "two"));
  ([str "d"; str "c"], Dir); ([str "d"; str "c"; str "e"], File (str "three")); ([str "l"], Link (str "d/c"))].
Lemma ex_tree : tree ex_fs.
Proof. tree_tac. Qed.
Definition no_empty (fs : fsys) (p : loc) : bool := false.
Example C100_ex :
  (let '(r, fs') := RenameFile no_empty ex_fs [str "d"] (str "../d/c/") (str "/x/") (fun x => x) true in
     r = Ok tt /\ fs' [str "x"; str "e"] = Some (File (str "three")) /\ fs' [str "d"; str "c"] = None /\ fs' [str "a"] = Some (File (str "one"))) /\
  fst (RenameFile no_empty ex_fs [str "d"] (str "b") (str "/a") (fun x => x) true) = Exn /\
  fst (RenameFile no_empty ex_fs [] (str "d") (str "d/c/x") (fun x => x) true) = Exn /\
  snd (RemoveFile ex_fs [] (str "l/e") true) [str "d"; str "c"; str "e"] = None /\
  snd (RemoveFile ex_fs [] (str "l") true) [str "l"] = None /\ fst (RemoveFile ex_fs [] (str "l/") true) = Exn /\
  GetFileSize (fun _ => 4096) ex_fs [str "d"] (str "c/../../l/e") = Ok 5 /\ DoesFileExist ex_fs [] (str "l/") = true /\ DoesFileExist ex_fs [] (str "d/x") = false.
Proof. repeat split. Qed.
(** ** Finding: DoesFileExist("/") is false: the slash is removed and stat("") fails *)
Theorem C100_root_finding : forall fs cwd, DoesFileExist fs cwd (str "/") = false.
Proof. reflexivity. Qed.
(** ** Finding: DoesFileExist("a/") is true for a regular file a, where every system call on "a/" fails with ENOTDIR *)
Theorem C100_slash_finding : exists fs cwd, tree fs /\ DoesFileExist fs cwd (str "a/") = true /\ stat fs cwd (str "a/") = None.
Proof. exists ex_fs, []. split; [apply ex_tree|]. split; reflexivity. Qed.
(** ** Finding: a backslash at the end is removed too, though it is part of a name on POSIX, so RenameFile overwrites an existing file of such a name *)
Theorem C100_backslash_finding : exists fs fs', tree fs /\ stat fs [] (str "b\") = Some (File (str "old")) /\
  RenameFile no_empty fs [] (str "a") (str "b\") (fun x => x) true = (Ok tt, fs') /\ fs' [str "b\"] = Some (File (str "new")) /\ forall q, fs' q <> Some (File (str "old")).
Proof.
  pose (fs := of_list [([], Dir); ([str "a"], File (str "new")); ([str "b\"], File (str "old"))]).
  exists fs, (move fs [str "a"] [str "b\"]). split; [|split; [reflexivity|split; [reflexivity|split; [reflexivity|]]]].
  - unfold fs. tree_tac.
  - intros q. unfold move, fs. destruct (under [str "b\"] q) as [r|] eqn:U.
    + intros E. apply of_list_in in E. cbn [In] in E. destruct E as [E|[E|[E|[]]]]; discriminate E.
    + destruct (under [str "a"] q) as [r|] eqn:V; [discriminate|]. intros E. apply of_list_in in E. destruct E as [E|[E|[E|[]]]]; try discriminate E.
      injection E as <-. discriminate U.
Qed.
(** ** Finding: stat follows links, so a symbolic link to nothing does not exist for RenameFile and is overwritten *)
Theorem C100_dangling_finding : exists fs fs', tree fs /\ fs [str "b"] = Some (Link (str "gone")) /\
  RenameFile no_empty fs [] (str "a") (str "b") (fun x => x) true = (Ok tt, fs') /\ fs' [str "b"] = Some (File (str "new")).
Proof.
  exists (of_list [([], Dir); ([str "a"], File (str "new")); ([str "b"], Link (str "gone"))]). eexists. split; [|split; [reflexivity|split; reflexivity]].
  tree_tac.
Qed.
(** ** Finding: RenameFile tests and then renames: a file that another process creates in between is overwritten, and RenameFile succeeds *)
Theorem C100_race_finding : forall empty fs cwd from to f t dold dnew, DoesFileExist fs cwd to = false ->
  (forall fs2, (forall q, q <> t -> fs2 q = fs q) -> place fs2 cwd (FileModel.cut from) = Some (f, false) /\ place fs2 cwd (FileModel.cut to) = Some (t, false)) ->
  fs f = Some (File dnew) -> f <> t -> ~ (exists r, t = f ++ r) ->
  let other := fun fs1 : fsys => fun q => if loc_dec q t then Some (File dold) else fs1 q in
  exists fs', RenameFile empty fs cwd from to other true = (Ok tt, fs') /\ fs' t = Some (File dnew) /\ moved (other fs) f t fs'.
Proof.
  intros empty fs cwd from to f t dold dnew X P F N U other. unfold RenameFile. rewrite X. destruct (P (other fs)) as [Pf Pt]; [intros q Nq; unfold other; destruct (loc_dec q t); [contradiction|auto]|].
  unfold sys_rename. rewrite Pf, Pt. assert (Ff: other fs f = Some (File dnew)) by (unfold other; destruct (loc_dec f t); [contradiction|auto]). rewrite Ff. cbn [orb andb].
  destruct (loc_dec f t); [contradiction|]. apply under_none in U. rewrite U. assert (Ft: other fs t = Some (File dold)) by (unfold other; destruct (loc_dec t t); [auto|contradiction]). rewrite Ft. cbn [negb andb].
  eexists. split; [reflexivity|]. pose proof (move_moved (other fs) f t) as M. split; [|exact M]. destruct M as [M _]. specialize (M []). rewrite !app_nil_r in M. rewrite M. exact Ff.
Qed.
Example C100_race_ex : exists fs', RenameFile no_empty ex_fs [] (str "a") (str "n") (fun fs1 q => if loc_dec q [str "n"] then Some (File (str "precious")) else fs1 q) true = (Ok tt, fs') /\
  fs' [str "n"] = Some (File (str "one")).
Proof. eexists. split; reflexivity. Qed.

(** ** C101 *)
(** the entries of directory d as readdir reports them: "." and ".." and each name once, the type right or unknown *)
Definition type_of (nd : node) (ty : Z) : Prop :=
  match nd with File _ => ty = DT_REG | Dir => ty = DT_DIR | Link _ => ty = DT_LNK | Other => ty <> DT_REG /\ ty <> DT_DIR end.
Definition entries (fs : fsys) (d : loc) (es : list FileInfo) : Prop :=
  NoDup (map fst es) /\ (forall n, In n (map fst es) <-> n = str "." \/ n = str ".." \/ fs (d ++ [n]) <> None) /\
  (forall n ty nd, In (n, ty) es -> fs (d ++ [n]) = Some nd -> 0 <= ty < 256 /\ (ty = DT_UNKNOWN \/ type_of nd ty)).
Definition wanted (ext n : list Z) : Prop := ext = [] \/ exists b, n = b ++ str "." ++ ext.
Lemma list_loop_spec : forall es l ext cond (P : list Z -> bool), (forall n ty, In (n, ty) es -> 0 <= ty < 256) ->
  (forall n ty, In (n, ty) es -> n <> dot1 -> n <> dot2 -> cond n ext = Ok (P n)) ->
  list_loop es l ext cond = (Ok true, l ++ filter (fun fi => if bytes_dec (fst fi) dot1 then false else if bytes_dec (fst fi) dot2 then false else P (fst fi)) es).
Proof.
  induction es as [|[n ty] es IH]; intros l ext cond P R C; cbn [list_loop filter]; [rewrite app_nil_r; auto|]. rewrite (Z.mod_small ty) by (apply (R n); left; auto).
  unfold filterAndPush. cbn [fst]. destruct (bytes_dec n dot1) as [_|N1].
  { apply IH; intros; [eapply R|eapply C]; eauto; right; eauto. }
  destruct (bytes_dec n dot2) as [_|N2]. { apply IH; intros; [eapply R|eapply C]; eauto; right; eauto. }
  rewrite (C n ty) by (auto; left; auto). cbn [bind]. rewrite (IH _ ext cond P); [|intros; eapply R; right; eauto|intros; eapply C; eauto; right; eauto]. destruct (P n); [rewrite <- app_assoc|]; reflexivity.
Qed.
(** GetFileList appends exactly the entries of the directory with the extension, each once, except "." and ".."; isFile and isDirectory of each entry are right, or throw when the file system does not tell; the directory is closed *)
Theorem C101_list : forall readdir fs cwd dir d l ext, tree fs -> resolve fs cwd (FileModel.cut dir) = Some d -> fs d = Some Dir -> entries fs d (readdir d) ->
  (forall n ty, In (n, ty) (readdir d) -> 0 <= ty < 256) -> exists new,
  GetFileList readdir fs cwd true l dir ext FileNameModel.HasExtension = (Ok true, l ++ new, [OpenDir; CloseDir]) /\
  GetFileListOf readdir fs cwd true dir ext FileNameModel.HasExtension = Ok new /\
  NoDup (map fst new) /\ (forall n, In n (map fst new) <-> fs (d ++ [n]) <> None /\ wanted ext n) /\
  (forall fi, In fi new -> exists nd, fs (d ++ [fst fi]) = Some nd /\
     ((snd fi = DT_UNKNOWN /\ isFile fi = Exn /\ isDirectory fi = Exn) \/
      (exists bf bd, isFile fi = Ok bf /\ (bf = true <-> exists data, nd = File data) /\ isDirectory fi = Ok bd /\ (bd = true <-> nd = Dir)))).
Proof.
  intros readdir fs cwd dir d l ext [Rt T] Rs D (Nd & In_ & Ty) B.
  set (P := fun n => match FileNameModel.HasExtension n ext with Ok b => b | _ => false end).
  assert (HP: forall n, FileNameModel.HasExtension n ext = Ok (P n) /\ (P n = true <-> wanted ext n)).
  { intros n. destruct (FileNameProps.C57_extension n ext) as (b & E & Q). unfold P. rewrite E. split; [auto|]. rewrite Q. unfold wanted, FileNameProps.ends_with. tauto. }
  set (keep := fun fi : FileInfo => if bytes_dec (fst fi) dot1 then false else if bytes_dec (fst fi) dot2 then false else P (fst fi)).
  assert (K: forall fi, keep fi = true <-> fst fi <> dot1 /\ fst fi <> dot2 /\ wanted ext (fst fi)).
  { intros fi. unfold keep. destruct (bytes_dec (fst fi) dot1); [split; [discriminate|tauto]|]. destruct (bytes_dec (fst fi) dot2); [split; [discriminate|tauto]|]. rewrite (proj2 (HP _)). tauto. }
  exists (filter keep (readdir d)).
  assert (L: forall l, list_loop (readdir d) l ext FileNameModel.HasExtension = (Ok true, l ++ filter keep (readdir d))). { intros l0. apply (list_loop_spec _ _ _ _ P); [exact B|]. intros n ty _ _ _. apply HP. }
  split; [unfold GetFileList, sys_opendir; rewrite Rs, D, L; auto|]. split; [unfold GetFileListOf, GetFileList, sys_opendir; rewrite Rs, D, L; auto|]. split; [|split].
  - clear -Nd. induction (readdir d) as [|x es IH]; cbn; [constructor|]. inversion_clear Nd. destruct (keep x); cbn; auto. constructor; auto. intros I. apply H. apply in_map_iff in I. destruct I as (y & E & I). apply filter_In in I. apply in_map_iff. exists y. tauto.
  - intros n. split.
    + intros I. apply in_map_iff in I. destruct I as (fi & <- & I). apply filter_In in I. destruct I as [I F]. apply K in F. destruct F as (F1 & F2 & F3). split; [|auto].
      apply (in_map fst) in I. apply In_ in I. destruct I as [I|[I|I]]; auto; contradiction.
    + intros [F W]. assert (I: In n (map fst (readdir d))) by (apply In_; auto). apply in_map_iff in I. destruct I as (fi & <- & I). apply in_map. apply filter_In. split; [auto|]. apply K. destruct (T _ _ F) as [_ Q]. destruct Q as (_ & Q1 & Q2 & _). auto.
  - intros [n ty] I. apply filter_In in I. destruct I as [I F]. apply K in F. cbn [fst snd] in *. destruct F as (F1 & F2 & _).
    assert (J: fs (d ++ [n]) <> None). { pose proof (in_map fst _ _ I) as J. cbn in J. apply In_ in J. destruct J as [J|[J|J]]; auto; contradiction. }
    destruct (fs (d ++ [n])) as [nd|] eqn:E; [|contradiction]. exists nd. split; [auto|]. destruct (Z.eq_dec ty DT_UNKNOWN) as [->|Nu]; [left; repeat split|]. destruct (Ty _ _ _ I E) as [_ [->|Q]]; [contradiction|].
    right. unfold isFile, isDirectory, verify, isUnknown. cbn [snd]. destruct (Z.eqb_spec ty DT_UNKNOWN); [contradiction|]. cbn [bind]. exists (ty =? DT_REG), (ty =? DT_DIR).
    split; [auto|]. split; [|split; [auto|]]; rewrite Z.eqb_eq; destruct nd; cbn in Q; subst; split; intros X; first [discriminate X | reflexivity | (eexists; reflexivity) | (destruct Q; contradiction) | (destruct X; discriminate)].
Qed.
(** a directory that cannot be opened: the list is as it was, the second form throws *)
Theorem C101_none : forall readdir fs cwd ok dir l ext cond, ok = false \/ stat fs cwd (FileModel.cut dir) <> Some Dir ->
  GetFileList readdir fs cwd ok l dir ext cond = (Ok false, l, []) /\ GetFileListOf readdir fs cwd ok dir ext cond = Exn.
Proof.
  intros readdir fs cwd ok dir l ext cond H. assert (E: sys_opendir readdir fs cwd (FileModel.cut dir) ok = None).
  { unfold sys_opendir, stat in *. destruct (resolve fs cwd (FileModel.cut dir)) as [d|]; auto. destruct (fs d) as [[]|]; auto. destruct H as [->|H]; [auto|contradiction]. }
  unfold GetFileListOf, GetFileList. rewrite E. auto.
Qed.
(** whatever the caller's condition does, even if it throws: a directory that was opened is closed, the old list is kept and only entries are appended *)
Theorem C101_closed : forall readdir fs cwd ok l dir ext cond, (forall d n ty, In (n, ty) (readdir d) -> 0 <= ty < 256) ->
  let '(r, l', ev) := GetFileList readdir fs cwd ok l dir ext cond in
  (ev = [] \/ ev = [OpenDir; CloseDir]) /\ (exists new d, l' = l ++ new /\ incl new (readdir d)) /\
  ((exists b, r = Ok b) \/ r = Exn /\ exists d n ty, In (n, ty) (readdir d) /\ forall b, cond n ext <> Ok b).
Proof.
  intros readdir fs cwd ok l dir ext cond B. unfold GetFileList, sys_opendir. destruct (resolve fs cwd (FileModel.cut dir)) as [d|]; [|split; [auto|split; [exists [], []; rewrite app_nil_r; split; [auto|intros x []]|left; eauto]]].
  destruct (fs d) as [[x| |x| ]|]; try (split; [auto|split; [exists [], []; rewrite app_nil_r; split; [auto|intros y []]|left; eauto]]; fail). destruct ok; [|split; [auto|split; [exists [], []; rewrite app_nil_r; split; [auto|intros y []]|left; eauto]]].
  assert (G: forall es l0, incl es (readdir d) -> let '(r, l') := list_loop es l0 ext cond in (exists new, l' = l0 ++ new /\ incl new (readdir d)) /\ ((exists b, r = Ok b) \/ r = Exn /\ exists n ty, In (n, ty) (readdir d) /\ forall b, cond n ext <> Ok b)).
  { induction es as [|[n ty] es IH]; intros l0 I; cbn [list_loop]; [split; [exists []; rewrite app_nil_r; split; [auto|intros y []]|left; eauto]|].
    assert (In1: In (n, ty) (readdir d)) by (apply I; left; auto). rewrite Z.mod_small by (apply (B d n); auto). assert (I2: incl es (readdir d)) by (intros y Y; apply I; right; auto).
    unfold filterAndPush. cbn [fst]. destruct (bytes_dec n dot1); [apply IH; auto|]. destruct (bytes_dec n dot2); [apply IH; auto|].
    destruct (cond n ext) as [b| | |] eqn:C; cbn [bind]; try (split; [exists []; rewrite app_nil_r; split; [auto|intros y []]|right; split; [auto|]; exists n, ty; split; [auto|intros b; rewrite C; discriminate]]).
    destruct b; [|apply IH; auto]. specialize (IH (l0 ++ [(n, ty)]) I2). match goal with |- let '(_, _) := ?x in _ => destruct x as [r l'] eqn:Q end. unfold FileInfo in *. rewrite Q in IH. destruct IH as [(new & -> & In_) X]. split; [|auto].
    exists ((n, ty) :: new). rewrite <- app_assoc. split; [auto|]. intros y [<-|Y]; auto. }
  specialize (G (readdir d) l (incl_refl _)). destruct (list_loop (readdir d) l ext cond) as [r l']. destruct G as [(new & -> & I) X]. split; [auto|]. split; [exists new, d; auto|]. destruct X as [X|(E & n & ty & Y)]; [auto|right; split; [auto|]; exists d, n, ty; auto].
Qed.
Lemma nodup_app : forall (A : Type) (a b : list A) x, NoDup (a ++ b) -> In x a -> In x b -> False.
Proof. induction a as [|z zs IH]; intros b x Nd J I; [destruct J|]. cbn in Nd. inversion Nd as [|? ? H H']; subst. destruct J as [->|J]; [apply H; apply in_or_app; auto|exact (IH _ _ H' J I)]. Qed.
(** ** Finding: readdir also returns 0 for an error; GetFileList does not look at errno, returns true, and the rest of the directory is missing *)
Theorem C101_error_finding : forall readdir fs cwd dir d seen rest, tree fs -> resolve fs cwd (FileModel.cut dir) = Some d -> fs d = Some Dir ->
  entries fs d (seen ++ rest) -> (forall n ty, In (n, ty) (seen ++ rest) -> 0 <= ty < 256) -> readdir d = seen ->
  exists l, GetFileList readdir fs cwd true [] dir [] FileNameModel.HasExtension = (Ok true, l, [OpenDir; CloseDir]) /\
    forall n ty, In (n, ty) rest -> ~ In n (map fst l).
Proof.
  intros readdir fs cwd dir d seen rest Tr Rs D (Nd & In_ & Ty) B Sn. eexists. split; [unfold GetFileList, sys_opendir; rewrite Rs, D, Sn|].
  - rewrite (list_loop_spec seen [] [] FileNameModel.HasExtension (fun _ => true)); [reflexivity|intros n ty I; apply (B n); apply in_or_app; auto|reflexivity].
  - intros n ty I J. cbn [app] in J. apply in_map_iff in J. destruct J as (y & E & J). apply filter_In in J. destruct J as [J _]. rewrite map_app in Nd.
    apply (in_map fst) in J. apply (in_map fst) in I. rewrite E in J. cbn in I. exact (nodup_app _ _ _ _ Nd J I).
Qed.
Definition ex_readdir (d : loc) : list FileInfo :=
  if loc_dec d [str "d"] then [(str ".", 4); (str "c", 4); (str "b", 0); (str "..", 4)]
  else [(str "l", 10); (str "..", 4); (str "a", 8); (str ".", 4); (str "d", 4)].
Example C101_ex : resolve ex_fs [str "d"] (FileModel.cut (str "../")) = Some [] /\ entries ex_fs [] (ex_readdir []) /\
  GetFileListOf ex_readdir ex_fs [str "d"] true (str "../") [] FileNameModel.HasExtension = Ok [(str "l", 10); (str "a", 8); (str "d", 4)] /\
  GetFileListOf ex_readdir ex_fs [] true (str "d") (str "cpp") FileNameModel.HasExtension = Ok [] /\
  GetFileListOf ex_readdir ex_fs [] true (str "a") [] FileNameModel.HasExtension = Exn /\
  isFile (str "b", 0) = Exn /\ isFile (str "a", 8) = Ok true /\ isDirectory (str "l", 10) = Ok false.
Proof.
  split; [reflexivity|]. split; [|repeat split]. split; [|split].
  - repeat (constructor; [cbn; intros H; repeat (destruct H as [H|H]; [discriminate H|]); destruct H|]). constructor.
  - intros n. split.
    + intros I. cbn in I. repeat (destruct I as [<-|I]; [first [left; reflexivity|right; left; reflexivity|right; right; vm_compute; discriminate]|]). destruct I.
    + intros [-> | [-> | H]]; [cbn; auto 10|cbn; auto 10|]. destruct (ex_fs ([] ++ [n])) as [nd|] eqn:E; [|contradiction]. apply of_list_in in E. cbn [In app] in E.
      repeat (destruct E as [E|E]; [first [discriminate E|injection E as <- _; cbn; auto 10]|]). destruct E.
  - intros n ty nd I E. cbn [In ex_readdir loc_dec] in I. vm_compute in I.
    repeat (destruct I as [I|I]; [injection I as <- <-; split; [lia|]; vm_compute in E; first [discriminate E|injection E as <-; right; reflexivity]|]). destruct I.
Qed.

(** GetExePath: the name of the executable if it fits into the buffer; without /proc an empty path *)
Theorem C101_exe : forall dir file base0, ~ In 47 file -> zlen (dir ++ 47 :: file) <= 4094 ->
  fst (GetExePath (Some (dir ++ 47 :: file)) base0) = dir ++ str "/" /\
  (forall b, file = b ++ str ".exe" -> snd (GetExePath (Some (dir ++ 47 :: file)) base0) = b) /\
  ((forall b, file <> b ++ str ".exe") -> snd (GetExePath (Some (dir ++ 47 :: file)) base0) = file) /\
  GetExePath None base0 = ([], base0).
Proof.
  intros dir file base0 N L. unfold GetExePath. rewrite firstn_all2 by (unfold zlen in L; lia). destruct (FileNameProps.C57_exe dir file base0 N) as (A & B & C). split; [exact A|]. split; [exact B|]. split; [exact C|reflexivity].
Qed.
(** ** Finding: a longer path is cut without notice: the directory returned is another one *)
Theorem C101_exe_finding : forall n base0, (4093 < n)%nat -> fst (GetExePath (Some (str "/" ++ repeat 97 n ++ str "/x")) base0) = str "/".
Proof.
  intros n base0 L. unfold GetExePath. change (Z.to_nat (4096 - 2)) with (Z.to_nat 4094). destruct (Z.to_nat 4094) as [|m] eqn:E; [lia|].
  change (str "/" ++ repeat 97 n ++ str "/x") with (47 :: repeat 97 n ++ str "/x"). cbn [firstn]. rewrite firstn_app, repeat_length. replace (m - n)%nat with O by lia. cbn [firstn]. rewrite app_nil_r.
  apply (FileNameProps.C57_exe [] (firstn m (repeat 97 n)) base0). intros I. assert (J: In 47 (repeat 97 n)) by (rewrite <- (firstn_skipn m); apply in_or_app; auto). apply repeat_spec in J. discriminate J.
Qed.

Print Assumptions C100_plain.
Print Assumptions C100_exists.
Print Assumptions C100_rename.
Print Assumptions C100_rename_succeeds.
Print Assumptions C100_remove.
Print Assumptions C101_list.
Print Assumptions C101_closed.
Print Assumptions C101_error_finding.
Print Assumptions C101_exe.
