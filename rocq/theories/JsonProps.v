(** Properties of include/cybozu/json.hpp (C79): values behave like values, nothing leaks, nothing is
    freed twice, whatever allocation fails. *)
Require Import Verif.Common Verif.JsonModel.

(** ** Specification: variables hold trees *)
Inductive tree := JNull | JNum (bits : Z) | JBool (b : bool) | JStr (s : list Z) | JArr (l : list tree) | JObj (l : list (list Z * tree)).
Definition tkids (t : tree) : option (list tree) := match t with JArr l => Some l | JObj l => Some (map snd l) | _ => None end.
Definition tset_kid (t : tree) (i : nat) (u : tree) : tree :=
  match t with
  | JArr l => JArr (upd l i u)
  | JObj l => JObj (match nth_error l i with Some (k, _) => upd l i (k, u) | None => l end)
  | t => t
  end.
Definition tkid (t : tree) (i : nat) : option tree := match tkids t with Some l => nth_error l i | None => None end.
Fixpoint tget (t : tree) (path : list nat) : option tree :=
  match path with [] => Some t | i :: path => match tkid t i with Some u => tget u path | None => None end end.
Fixpoint tset (t : tree) (path : list nat) (u : tree) : tree :=
  match path with
  | [] => u
  | i :: path => match tkid t i with Some k => tset_kid t i (tset k path u) | None => t end
  end.
Definition lit_tree (l : lit) : tree := match l with LNull => JNull | LNum d => JNum d | LBool b => JBool b | LStr s => JStr s end.
(** the variables of the program as one list of trees; a path starts with the number of the variable *)
Definition vget (ts : list tree) (path : list nat) : option tree := match path with [] => None | _ => tget (JArr ts) path end.
Definition vset (ts : list tree) (path : list nat) (u : tree) : list tree := match tset (JArr ts) path u with JArr l => l | _ => ts end.
Fixpoint vgets (ts : list tree) (ps : list (list nat)) : option (list tree) :=
  match ps with
  | [] => Some []
  | p :: ps => match vget ts p, vgets ts ps with Some t, Some l => Some (t :: l) | _, _ => None end
  end.
(** neither place lies inside the other *)
Fixpoint apart (a b : list nat) : bool :=
  match a, b with i :: a, j :: b => if Nat.eqb i j then apart a b else true | _, _ => false end.
(** what a statement means; None: it names a place that does not exist, or swaps a value with a part of itself *)
Definition meaning (ts : list tree) (o : op) : option (list tree) :=
  match o with
  | Declare l => Some (ts ++ [lit_tree l])
  | DeclareCopy src => match vget ts src with Some t => Some (ts ++ [t]) | None => None end
  | DeclareArray srcs => match vgets ts srcs with Some l => Some (ts ++ [JArr l]) | None => None end
  | DeclareObject srcs => match vgets ts (map snd srcs) with Some l => Some (ts ++ [JObj (combine (map fst srcs) l)]) | None => None end
  | Assign dst src => match vget ts dst, vget ts src with Some _, Some t => Some (vset ts dst t) | _, _ => None end
  | AssignLit dst l => match vget ts dst with Some _ => Some (vset ts dst (lit_tree l)) | None => None end
  | Swap a b =>
    match vget ts a, vget ts b with
    | Some t, Some u => if apart a b then Some (vset (vset ts a u) b t) else if list_eq_dec Nat.eq_dec a b then Some ts else None
    | _, _ => None
    end
  | Leave => match ts with [] => None | _ => Some (removelast ts) end
  end.

(** ** Ownership: value v in heap h is tree t and owns exactly the cells A *)
Inductive owns (h : heap) : val -> tree -> list nat -> Prop :=
| o_null : owns h (V T_Null 0) JNull []
| o_num d : owns h (V T_Number d) (JNum d) []
| o_bool b : owns h (V T_Bool (if b : bool then 1 else 0)) (JBool b) []
| o_str p s : cellat h p = CStr s -> owns h (V T_String (Z.of_nat p)) (JStr s) [p]
| o_arr p vs ts A : cellat h p = CArr vs -> ownsl h vs ts A -> ~ In p A -> owns h (V T_Array (Z.of_nat p)) (JArr ts) (p :: A)
| o_obj p kvs kts A : cellat h p = CObj kvs -> map fst kvs = map fst kts -> ownsl h (map snd kvs) (map snd kts) A -> ~ In p A ->
    owns h (V T_Object (Z.of_nat p)) (JObj kts) (p :: A)
with ownsl (h : heap) : list val -> list tree -> list nat -> Prop :=
| ol_nil : ownsl h [] [] []
| ol_cons v vs t ts A B : owns h v t A -> ownsl h vs ts B -> (forall p, In p A -> ~ In p B) -> ownsl h (v :: vs) (t :: ts) (A ++ B).
Scheme owns_m := Minimality for owns Sort Prop with ownsl_m := Minimality for ownsl Sort Prop.
Combined Scheme owns_both from owns_m, ownsl_m.

Lemma frame_both h h' :
  (forall v t A, owns h v t A -> (forall p, In p A -> cellat h' p = cellat h p) -> owns h' v t A) /\
  (forall vs ts A, ownsl h vs ts A -> (forall p, In p A -> cellat h' p = cellat h p) -> ownsl h' vs ts A).
Proof.
  apply (owns_both h (fun v t A => (forall p, In p A -> cellat h' p = cellat h p) -> owns h' v t A)
                     (fun vs ts A => (forall p, In p A -> cellat h' p = cellat h p) -> ownsl h' vs ts A)); intros; try (constructor; fail).
  - constructor. rewrite H0 by (left; auto). auto.
  - econstructor; [rewrite H3 by (left; auto); eauto|apply H1; intros; apply H3; right; auto|auto].
  - econstructor; [rewrite H4 by (left; auto); eauto|auto|apply H2; intros; apply H4; right; auto|auto].
  - constructor; [apply H0|apply H2|auto]; intros; apply H4; apply in_app_iff; auto.
Qed.
Lemma frame h h' v t A : owns h v t A -> (forall p, In p A -> cellat h' p = cellat h p) -> owns h' v t A.
Proof. apply frame_both. Qed.
Lemma framel h h' vs ts A : ownsl h vs ts A -> (forall p, In p A -> cellat h' p = cellat h p) -> ownsl h' vs ts A.
Proof. apply frame_both. Qed.

Lemma live_both h :
  (forall v t A, owns h v t A -> NoDup A /\ forall p, In p A -> cellat h p <> Dead /\ cellat h p <> Raw) /\
  (forall vs ts A, ownsl h vs ts A -> NoDup A /\ forall p, In p A -> cellat h p <> Dead /\ cellat h p <> Raw).
Proof.
  apply (owns_both h (fun v t A => NoDup A /\ forall p, In p A -> cellat h p <> Dead /\ cellat h p <> Raw)
                     (fun vs ts A => NoDup A /\ forall p, In p A -> cellat h p <> Dead /\ cellat h p <> Raw)); intros;
    try (split; [constructor|intros ? []]; fail).
  - split; [constructor; [intros []|constructor]|]. intros q [<-|[]]. rewrite H. split; discriminate.
  - destruct H1 as [N L]. split; [constructor; auto|]. intros q [<-|K]; [rewrite H; split; discriminate|auto].
  - destruct H2 as [N L]. split; [constructor; auto|]. intros q [<-|K]; [rewrite H; split; discriminate|auto].
  - destruct H0 as [N L], H2 as [N2 L2]. split.
    + clear -N N2 H3. induction A; simpl; auto. inversion N; subst. constructor.
      * rewrite in_app_iff. intros [K|K]; [auto|]. apply (H3 a); [left|]; auto.
      * apply IHA; auto. intros p K. apply H3. right; auto.
    + intros p K. apply in_app_iff in K. destruct K; auto.
Qed.
Lemma cell_range h p : cellat h p <> Dead -> (p < length h)%nat.
Proof. intros H. destruct (lt_dec p (length h)); auto. exfalso. apply H. unfold cellat. apply nth_overflow. lia. Qed.

(** ** depth of a tree *)
Fixpoint height (t : tree) : nat :=
  match t with
  | JArr l => S (fold_right Nat.max O (map height l))
  | JObj l => S (fold_right Nat.max O (map (fun kt => height (snd kt)) l))
  | _ => 1%nat
  end.
Definition hmax (ts : list tree) : nat := fold_right Nat.max O (map height ts).
Lemma height_obj l : height (JObj l) = S (hmax (map snd l)).
Proof. cbn [height]. unfold hmax. rewrite map_map. reflexivity. Qed.
Lemma height_both h :
  (forall v t A, owns h v t A -> (height t <= S (length A))%nat) /\
  (forall vs ts A, ownsl h vs ts A -> (hmax ts <= S (length A))%nat).
Proof.
  apply (owns_both h (fun v t A => (height t <= S (length A))%nat) (fun vs ts A => (hmax ts <= S (length A))%nat)); intros.
  1-4: simpl; lia.
  - cbn [height length]. fold (hmax ts). lia.
  - rewrite height_obj. cbn [length]. lia.
  - unfold hmax; simpl; lia.
  - unfold hmax in *. cbn [map fold_right]. rewrite app_length. lia.
Qed.
Lemma height_depth h v t A : owns h v t A -> (height t <= depth h)%nat.
Proof.
  intros O. pose proof (proj1 (height_both h) _ _ _ O). destruct (proj1 (live_both h) _ _ _ O) as [N L].
  assert ((length A <= length h)%nat).
  { rewrite <- (seq_length (length h) 0). apply NoDup_incl_length; auto. intros p K. apply in_seq. specialize (L p K). split; [lia|]. apply cell_range. tauto. }
  unfold depth. lia.
Qed.
Lemma height_depthl h vs ts A : ownsl h vs ts A -> (hmax ts <= depth h)%nat.
Proof.
  intros O. pose proof (proj2 (height_both h) _ _ _ O). destruct (proj2 (live_both h) _ _ _ O) as [N L].
  assert ((length A <= length h)%nat).
  { rewrite <- (seq_length (length h) 0). apply NoDup_incl_length; auto. intros p K. apply in_seq. specialize (L p K). split; [lia|]. apply cell_range. tauto. }
  unfold depth. lia.
Qed.

Lemma nth_nth_error_d {X} (l : list X) n d : nth n l d = match nth_error l n with Some x => x | None => d end.
Proof. revert n. induction l; intros [|n]; simpl; auto. Qed.
Lemma cellat_upd h p c q : (p < length h)%nat -> cellat (upd h p c) q = if Nat.eqb q p then c else cellat h q.
Proof.
  intros H. unfold cellat. destruct (Nat.eqb_spec q p) as [->|N].
  - apply nth_error_nth. apply nth_error_upd_eq. auto.
  - rewrite !nth_nth_error_d, nth_error_upd_ne by auto. auto.
Qed.

Lemma cellat_app h c q : cellat (h ++ [c]) q = if Nat.eqb q (length h) then c else cellat h q.
Proof.
  unfold cellat. destruct (Nat.eqb_spec q (length h)) as [->|N].
  - rewrite app_nth2, Nat.sub_diag by lia. auto.
  - destruct (lt_dec q (length h)); [apply app_nth1; auto|]. rewrite !nth_overflow; auto; try lia. rewrite app_length. simpl. lia.
Qed.
Lemma cellat_out h q : (length h <= q)%nat -> cellat h q = Dead.
Proof. intros. apply nth_overflow. auto. Qed.

(** ** destruction frees exactly what is owned *)
Definition freed (h h' : heap) (A : list nat) : Prop :=
  length h' = length h /\ forall p, (In p A -> cellat h' p = Dead) /\ (~ In p A -> cellat h' p = cellat h p).
Definition ds_ok (n : nat) (ds : heap -> val -> res heap) : Prop :=
  forall h v t A, owns h v t A -> (height t <= n)%nat -> exists h', ds h v = Ok h' /\ freed h h' A.
Lemma hmax_cons t ts n : (hmax (t :: ts) <= n)%nat <-> (height t <= n)%nat /\ (hmax ts <= n)%nat.
Proof. unfold hmax. cbn [map fold_right]. lia. Qed.
Lemma hmax_app a b n : (hmax a <= n)%nat -> (hmax b <= n)%nat -> (hmax (a ++ b) <= n)%nat.
Proof. intros Ha Hb. induction a; cbn [app]; [auto|]. apply hmax_cons in Ha. apply hmax_cons. tauto. Qed.
Lemma destroy_all_ok n ds : ds_ok n ds -> forall vs ts h A, ownsl h vs ts A -> (hmax ts <= n)%nat ->
  exists h', destroy_all ds h vs = Ok h' /\ freed h h' A.
Proof.
  intros D. induction vs as [|v vs IH]; intros ts h A O H; inversion O as [|v0 vs0 t0 ts0 A0 B O1 O2 DJ]; subst; cbn [destroy_all].
  - exists h. split; [auto|]. split; [auto|]. intros p. split; [intros []|auto].
  - apply hmax_cons in H. destruct (D _ _ _ _ O1) as (h1 & -> & L1 & F1); [tauto|]. cbn [bind].
    destruct (IH ts0 h1 B) as (h2 & -> & L2 & F2); [|tauto|].
    { apply (framel h); auto. intros p K. apply F1. intros K2. apply (DJ p K2 K). }
    exists h2. split; [auto|]. split; [lia|]. intros p. rewrite in_app_iff. specialize (F1 p). specialize (F2 p). specialize (DJ p).
    destruct (in_dec Nat.eq_dec p B) as [K|K].
    + split; [tauto|]. intros Q. tauto.
    + rewrite (proj2 F2 K). split; [intros [Q|Q]; [apply F1; auto|tauto]|]. intros Q. apply F1. tauto.
Qed.
Lemma addr_of_nat ty p : addr (V ty (Z.of_nat p)) = p.
Proof. unfold addr. cbn. apply Nat2Z.id. Qed.
Lemma live_range h v t A p : owns h v t A -> In p A -> (p < length h)%nat.
Proof. intros O K. apply cell_range. apply (proj1 (live_both h) _ _ _ O). auto. Qed.
Lemma live_rangel h v t A p : ownsl h v t A -> In p A -> (p < length h)%nat.
Proof. intros O K. apply cell_range. apply (proj2 (live_both h) _ _ _ O). auto. Qed.
Lemma freed_cons h h1 p A : freed h h1 A -> (p < length h)%nat -> freed h (upd h1 p Dead) (p :: A).
Proof.
  intros [L F] R. split; [rewrite upd_length; auto|]. intros q. rewrite cellat_upd by lia. destruct (Nat.eqb_spec q p) as [->|N].
  - split; [auto|]. intros K. exfalso. apply K. left. auto.
  - split; [intros [K|K]; [congruence|apply F; auto]|]. intros K. apply F. intros K2. apply K. right; auto.
Qed.
Lemma destroy_ok n : ds_ok n (destroy n).
Proof.
  induction n as [|n IH]; intros h v t A O H.
  { inversion O; subst; simpl in H; lia. }
  inversion O; subst; cbn [destroy type_]; rewrite ?addr_of_nat.
  - exists h. split; auto. split; auto. intros p. split; [intros []|auto].
  - exists h. split; auto. split; auto. intros p. split; [intros []|auto].
  - exists h. split; auto. split; auto. intros p. split; [intros []|auto].
  - rewrite H0. eexists. split; [reflexivity|]. apply freed_cons; [split; auto; intros q; split; [intros []|auto]|]. apply cell_range. congruence.
  - rewrite H0. cbn [height] in H. fold (hmax ts) in H. destruct (destroy_all_ok _ _ IH _ _ _ _ H1) as (h1 & -> & F); [lia|]. cbn [bind].
    eexists. split; [reflexivity|]. apply freed_cons; auto. apply cell_range. congruence.
  - rewrite H0. rewrite height_obj in H. destruct (destroy_all_ok _ _ IH _ _ _ _ H2) as (h1 & -> & F); [lia|]. cbn [bind].
    eexists. split; [reflexivity|]. apply freed_cons; auto. apply cell_range. congruence.
Qed.

(** ** copying: new cells only; if memory runs out nothing is left behind *)
Definition grow (h h' : heap) (B : list nat) : Prop :=
  (length h <= length h')%nat /\ (forall p, (p < length h)%nat -> cellat h' p = cellat h p) /\
  (forall p, (length h <= p)%nat -> (cellat h' p <> Dead <-> In p B)) /\ (forall p, In p B -> (length h <= p)%nat).
Definition made (h h' : heap) (fs fs' : list bool) (r : option val) (t : tree) : Prop :=
  match r with None => grow h h' [] | Some v' => exists B, owns h' v' t B /\ grow h h' B end /\
  (fs = [] -> fs' = [] /\ r <> None).
Definition cp_ok (n : nat) (cp : heap -> list bool -> val -> result val) : Prop :=
  forall h fs v t A, owns h v t A -> (height t <= n)%nat -> exists h' fs' r, cp h fs v = Ok (h', fs', r) /\ made h h' fs fs' r t.
Lemma notlive (c : cell) (P : Prop) : (c <> Dead <-> P) -> ~ P -> c = Dead.
Proof. intros H N. destruct c; auto; exfalso; apply N, H; discriminate. Qed.
Lemma ownsl_app h vs ts A vs' ts' B : ownsl h vs ts A -> ownsl h vs' ts' B -> (forall p, In p A -> ~ In p B) -> ownsl h (vs ++ vs') (ts ++ ts') (A ++ B).
Proof.
  intros O O2. induction O as [|v vs t ts A1 A2 O1 O IH DJ]; intros D; [auto|]. cbn [app]. rewrite <- app_assoc. constructor; [auto|..].
  - apply IH. intros p K. apply D. apply in_app_iff. auto.
  - intros p K. rewrite in_app_iff. intros [Q|Q]; [apply (DJ p); auto|]. apply (D p); auto. apply in_app_iff. auto.
Qed.
Lemma ownsl_one h v t A : owns h v t A -> ownsl h [v] [t] A.
Proof. intros O. rewrite <- (app_nil_r A). constructor; [auto|constructor|intros p _ []]. Qed.
Lemma grow_refl h : grow h h [].
Proof. split; [auto|]. split; [auto|]. split; [|intros ? []]. intros p L. rewrite cellat_out by auto. split; [congruence|intros []]. Qed.

(** result of the loops of the container copies, started with the elements done (cells D) *)
Definition loop_ok (h h' : heap) (D : list nat) (r : option (list val)) (ts : list tree) : Prop :=
  (length h <= length h')%nat /\
  match r with
  | None => forall p, (In p D -> cellat h' p = Dead) /\ ((p < length h)%nat -> ~ In p D -> cellat h' p = cellat h p) /\ ((length h <= p)%nat -> cellat h' p = Dead)
  | Some res => (forall p, (p < length h)%nat -> cellat h' p = cellat h p) /\
      exists E, ownsl h' res ts E /\ forall p, In p E <-> In p D \/ ((length h <= p)%nat /\ cellat h' p <> Dead)
  end.
(** a value that may be copied *)
Definition sourced (h : heap) (v : val) (t : tree) : Prop := exists A, owns h v t A.
Lemma sourced_grow h h' vs ts : (forall p, (p < length h)%nat -> cellat h' p = cellat h p) -> Forall2 (sourced h) vs ts -> Forall2 (sourced h') vs ts.
Proof.
  intros F H. induction H as [|v t vs ts (A & O) H IH]; constructor; auto. exists A. apply (frame h); auto. intros p K. apply F. exact (live_range _ _ _ _ _ O K).
Qed.
Lemma ownsl_sourced h vs ts A : ownsl h vs ts A -> Forall2 (sourced h) vs ts.
Proof. induction 1; constructor; auto. eexists; eauto. Qed.
Lemma copy_vec_ok n cp ds : cp_ok n cp -> ds_ok n ds -> forall vs ts h fs done dts D,
  Forall2 (sourced h) vs ts -> (hmax ts <= n)%nat -> ownsl h done dts D -> (hmax dts <= n)%nat ->
  exists h' fs' r, copy_vec cp ds h fs done vs = Ok (h', fs', r) /\ loop_ok h h' D r (dts ++ ts) /\ (fs = [] -> fs' = [] /\ r <> None).
Proof.
  intros CP DS. induction vs as [|v vs IH]; intros ts h fs done dts D O H OD HD; inversion O as [|v0 t vs0 ts0 O1 O2]; subst; cbn [copy_vec].
  - exists h, fs, (Some done). split; [auto|]. split; [|intros ->; split; congruence]. split; [auto|]. split; [auto|]. exists D. rewrite app_nil_r. split; [auto|].
    intros p. split; [auto|]. intros [K|[L K]]; auto. rewrite cellat_out in K by auto. congruence.
  - apply hmax_cons in H. destruct O1 as (A1 & O1). destruct (CP h fs v t A1 O1) as (h1 & fs1 & r & -> & M & FS); [tauto|]. cbn [bind]. destruct r as [v'|].
    + destruct M as (B & OB & L1 & F1 & N1 & B1).
      destruct (IH ts0 h1 fs1 (done ++ [v']) (dts ++ [t]) (D ++ B)) as (h2 & fs2 & r2 & -> & [L2 Q] & FS2).
      * apply (sourced_grow h); auto.
      * tauto.
      * apply ownsl_app; [|apply ownsl_one; auto|].
        { apply (framel h); [assumption|]. intros p K. apply F1. first [exact (live_rangel _ _ _ _ _ OD K)|exact (live_rangel _ _ _ _ _ O2 K)]. }
        intros p K1 K2. specialize (B1 p K2). pose proof (live_rangel _ _ _ _ _ OD K1). lia.
      * apply hmax_app; [auto|]. apply hmax_cons. split; [tauto|]. unfold hmax; simpl; lia.
      * exists h2, fs2, r2. split; [auto|]. split; [|intros E; apply FS in E; destruct E as [-> _]; apply FS2; auto].
        split; [lia|]. destruct r2 as [res|].
        -- destruct Q as [F2 (E & OE & HE)]. split; [intros p Lp; rewrite F2 by lia; apply F1; auto|]. exists E. rewrite <- app_assoc in OE. split; [exact OE|].
           intros p. rewrite HE, in_app_iff. split.
           ++ intros [[K|K]|[K1 K2]]; [auto| |right; split; [lia|auto]]. right. split; [apply B1; auto|].
              rewrite F2 by (eapply live_range; eauto). apply N1; auto.
           ++ intros [K|[K1 K2]]; [auto|]. destruct (le_lt_dec (length h1) p); [auto|]. left. right. apply N1; [auto|]. rewrite <- F2 by lia. auto.
        -- intros p. destruct (Q p) as (Q1 & Q2 & Q3). rewrite in_app_iff in *. split; [auto|]. split.
           ++ intros Lp ND. rewrite Q2; [apply F1; auto|lia|]. intros [K|K]; [auto|]. specialize (B1 p K). lia.
           ++ intros Lp. destruct (le_lt_dec (length h1) p); [auto|]. destruct (in_dec Nat.eq_dec p B) as [K|K]; [auto|].
              rewrite Q2; [|auto|intros [K2|K2]; [pose proof (live_rangel _ _ _ _ _ OD K2); lia|auto]].
              apply (notlive _ _ (N1 p Lp)). auto.
    + destruct M as (L1 & F1 & N1 & _).
      assert (OD1: ownsl h1 done dts D). { apply (framel h); [assumption|]. intros p K. apply F1. first [exact (live_rangel _ _ _ _ _ OD K)|exact (live_rangel _ _ _ _ _ O2 K)]. }
      destruct (destroy_all_ok _ _ DS _ _ _ _ OD1 HD) as (h2 & -> & L2 & F2). cbn [bind].
      exists h2, fs1, None. split; [auto|]. split; [|intros E; apply FS in E; destruct E; congruence]. split; [lia|]. intros p. destruct (F2 p) as [F21 F22]. split; [auto|]. split.
      * intros Lp ND. rewrite F22 by auto. apply F1; auto.
      * intros Lp. destruct (in_dec Nat.eq_dec p D) as [K|K]; [auto|]. rewrite F22 by auto. apply (notlive _ _ (N1 p Lp)). intros [].
Qed.

(** a std::map: the keys are copied, the values go through the same loop *)
Lemma copy_map_ok n cp ds : cp_ok n cp -> ds_ok n ds -> forall kvs ts h fs A done dts D,
  ownsl h (map snd kvs) ts A -> (hmax ts <= n)%nat -> ownsl h (map snd done) dts D -> (hmax dts <= n)%nat ->
  exists h' fs' r, copy_map cp ds h fs done kvs = Ok (h', fs', r) /\ loop_ok h h' D (option_map (map snd) r) (dts ++ ts) /\
    (forall res, r = Some res -> map fst res = map fst done ++ map fst kvs) /\ (fs = [] -> fs' = [] /\ r <> None).
Proof.
  intros CP DS. induction kvs as [|[k v] kvs IH]; intros ts h fs A done dts D O H OD HD; inversion O as [|v0 vs0 t ts0 A1 A2 O1 O2 DJ]; subst; cbn [copy_map].
  - exists h, fs, (Some done). split; [auto|]. split; [|split; [intros res E; injection E as <-; rewrite app_nil_r; auto|intros ->; split; congruence]]. split; [auto|]. split; [auto|]. exists D. rewrite app_nil_r. split; [auto|].
    intros p. split; [auto|]. intros [K|[L K]]; auto. rewrite cellat_out in K by auto. congruence.
  - apply hmax_cons in H.
    assert (BACK: exists h2, destroy_all ds h (map snd done) = Ok h2 /\ loop_ok h h2 D None (dts ++ t :: ts0)).
    { destruct (destroy_all_ok _ _ DS _ _ _ _ OD HD) as (h2 & -> & L2 & F2). exists h2. split; [auto|]. split; [lia|]. intros p. destruct (F2 p) as [F21 F22]. split; [auto|]. split; [auto|].
      intros Lp. rewrite F22; [apply cellat_out; auto|]. intros K. pose proof (live_rangel _ _ _ _ _ OD K). lia. }
    assert (TN: fs = [] -> take fs = (false, [])) by (intros ->; auto).
    destruct (take fs) as [f1 fs1]. destruct f1.
    { destruct BACK as (h2 & -> & Q). cbn [bind]. exists h2, fs1, None. split; [auto|]. split; [exact Q|]. split; [discriminate|]. intros E. apply TN in E. discriminate. }
    assert (TN2: fs1 = [] -> take fs1 = (false, [])) by (intros ->; auto).
    destruct (take fs1) as [f2 fs2]. destruct f2.
    { destruct BACK as (h2 & -> & Q). cbn [bind]. exists h2, fs2, None. split; [auto|]. split; [exact Q|]. split; [discriminate|]. intros E. apply TN in E. injection E as ->. specialize (TN2 eq_refl). discriminate. }
    assert (TT: fs = [] -> fs2 = []) by (intros E; apply TN in E; injection E as ->; specialize (TN2 eq_refl); congruence).
    destruct (CP h fs2 v t A1 O1) as (h1 & fs3 & r & -> & M & FS); [tauto|]. cbn [bind]. destruct r as [v'|].
    + destruct M as (B & OB & L1 & F1 & N1 & B1).
      destruct (IH ts0 h1 fs3 A2 (done ++ [(k, v')]) (dts ++ [t]) (D ++ B)) as (h2 & fs4 & r2 & -> & [L2 Q] & KEYS & FS2).
      * apply (framel h); [assumption|]. intros p K. apply F1. first [exact (live_rangel _ _ _ _ _ OD K)|exact (live_rangel _ _ _ _ _ O2 K)].
      * tauto.
      * rewrite map_app. apply ownsl_app; [|apply ownsl_one; auto|].
        { apply (framel h); [assumption|]. intros p K. apply F1. first [exact (live_rangel _ _ _ _ _ OD K)|exact (live_rangel _ _ _ _ _ O2 K)]. }
        intros p K1 K2. specialize (B1 p K2). pose proof (live_rangel _ _ _ _ _ OD K1). lia.
      * apply hmax_app; [auto|]. apply hmax_cons. split; [tauto|]. unfold hmax; simpl; lia.
      * exists h2, fs4, r2. split; [auto|]. split; [|split; [|intros E; apply TT, FS in E; destruct E as [-> _]; apply FS2; auto]].
        2:{ intros res E. rewrite (KEYS res E), map_app, <- app_assoc. auto. }
        split; [lia|]. destruct r2 as [res|]; cbn [option_map] in *.
        -- destruct Q as [F2 (E & OE & HE)]. split; [intros p Lp; rewrite F2 by lia; apply F1; auto|]. exists E. rewrite <- app_assoc in OE. split; [exact OE|].
           intros p. rewrite HE, in_app_iff. split.
           ++ intros [[K|K]|[K1 K2]]; [auto| |right; split; [lia|auto]]. right. split; [apply B1; auto|].
              rewrite F2 by (eapply live_range; eauto). apply N1; auto.
           ++ intros [K|[K1 K2]]; [auto|]. destruct (le_lt_dec (length h1) p); [auto|]. left. right. apply N1; [auto|]. rewrite <- F2 by lia. auto.
        -- intros p. destruct (Q p) as (Q1 & Q2 & Q3). rewrite in_app_iff in *. split; [auto|]. split.
           ++ intros Lp ND. rewrite Q2; [apply F1; auto|lia|]. intros [K|K]; [auto|]. specialize (B1 p K). lia.
           ++ intros Lp. destruct (le_lt_dec (length h1) p); [auto|]. destruct (in_dec Nat.eq_dec p B) as [K|K]; [auto|].
              rewrite Q2; [|auto|intros [K2|K2]; [pose proof (live_rangel _ _ _ _ _ OD K2); lia|auto]].
              apply (notlive _ _ (N1 p Lp)). auto.
    + destruct M as (L1 & F1 & N1 & _).
      assert (OD1: ownsl h1 (map snd done) dts D). { apply (framel h); [assumption|]. intros p K. apply F1. first [exact (live_rangel _ _ _ _ _ OD K)|exact (live_rangel _ _ _ _ _ O2 K)]. }
      destruct (destroy_all_ok _ _ DS _ _ _ _ OD1 HD) as (h2 & -> & L2 & F2). cbn [bind].
      exists h2, fs3, None. split; [auto|]. split; [|split; [discriminate|intros E; apply TT, FS in E; destruct E; congruence]]. split; [lia|]. intros p. destruct (F2 p) as [F21 F22]. split; [auto|]. split.
      * intros Lp ND. rewrite F22 by auto. apply F1; auto.
      * intros Lp. destruct (in_dec Nat.eq_dec p D) as [K|K]; [auto|]. rewrite F22 by auto. apply (notlive _ _ (N1 p Lp)). intros [].
Qed.

Lemma take_nil fs f fs' : take fs = (f, fs') -> fs = [] -> f = false /\ fs' = [].
Proof. intros H ->. injection H as <- <-. auto. Qed.
Lemma raw_at h : cellat (h ++ [Raw]) (length h) = Raw.
Proof. rewrite cellat_app, Nat.eqb_refl. auto. Qed.
Lemma app_raw_frame h p : (p < length h)%nat -> cellat (h ++ [Raw]) p = cellat h p.
Proof. intros H. rewrite cellat_app. destruct (Nat.eqb_spec p (length h)); [lia|auto]. Qed.
Lemma len_raw h : length (h ++ [Raw]) = S (length h).
Proof. rewrite app_length. simpl. lia. Qed.

Lemma new_string_ok h fs s : exists h' fs' r, new_string h fs s = Ok (h', fs', r) /\
  match r with None => grow h h' [] | Some p => owns h' (V T_String (Z.of_nat p)) (JStr s) [p] /\ grow h h' [p] end /\ (fs = [] -> fs' = [] /\ r <> None).
Proof.
  unfold new_string. destruct (take fs) as [f fs1] eqn:T1. destruct f.
  { exists h, fs1, None. split; [auto|]. split; [apply grow_refl|]. intros E. destruct (take_nil _ _ _ T1 E). discriminate. }
  destruct (take fs1) as [f fs2] eqn:T2. unfold free_raw, init_raw. rewrite raw_at. destruct f; cbn [bind].
  - eexists _, fs2, None. split; [reflexivity|]. split.
    + split; [rewrite upd_length, len_raw; lia|]. split; [|split].
      * intros p L. rewrite cellat_upd by (rewrite len_raw; lia). destruct (Nat.eqb_spec p (length h)); [lia|]. apply app_raw_frame. auto.
      * intros p L. rewrite cellat_upd by (rewrite len_raw; lia). destruct (Nat.eqb_spec p (length h)) as [->|]; [split; [congruence|intros []]|].
        rewrite cellat_out by (rewrite len_raw; lia). split; [congruence|intros []].
      * intros p [].
    + intros E. destruct (take_nil _ _ _ T1 E) as [_ E1]. destruct (take_nil _ _ _ T2 E1). discriminate.
  - eexists _, fs2, (Some (length h)). split; [reflexivity|]. split; [|intros E; destruct (take_nil _ _ _ T1 E) as [_ E1]; destruct (take_nil _ _ _ T2 E1); split; congruence].
    split.
    + constructor. rewrite cellat_upd by (rewrite len_raw; lia). rewrite Nat.eqb_refl. auto.
    + split; [rewrite upd_length, len_raw; lia|]. split; [|split].
      * intros p L. rewrite cellat_upd by (rewrite len_raw; lia). destruct (Nat.eqb_spec p (length h)); [lia|]. apply app_raw_frame. auto.
      * intros p L. rewrite cellat_upd by (rewrite len_raw; lia). destruct (Nat.eqb_spec p (length h)) as [->|N]; [split; [intros _; left; auto|discriminate]|].
        rewrite cellat_out by (rewrite len_raw; lia). split; [congruence|intros [K|[]]; congruence].
      * intros p [<-|[]]. auto.
Qed.

(** the end of both container constructors: storage p = length h was allocated, the loop ran *)
Lemma finish_new h h1 r ts c :
  loop_ok (h ++ [Raw]) h1 [] r ts ->
  match r with
  | None => exists h2, free_raw h1 (length h) = Ok h2 /\ grow h h2 []
  | Some vs => exists h2 E, init_raw h1 (length h) c = Ok h2 /\ (c <> Dead -> ownsl h2 vs ts E /\ cellat h2 (length h) = c /\ ~ In (length h) E /\ grow h h2 (length h :: E))
  end.
Proof.
  intros [L Q]. rewrite len_raw in L. destruct r as [vs|].
  - destruct Q as [F (E & OE & HE)]. rewrite len_raw in *.
    assert (RP: cellat h1 (length h) = Raw) by (rewrite F by lia; apply raw_at).
    exists (upd h1 (length h) c), E. unfold init_raw. rewrite RP. split; [auto|]. intros ND.
    assert (NI: ~ In (length h) E) by (rewrite HE; simpl; lia).
    split; [|split; [|split; [auto|]]].
    + apply (framel h1); auto. intros p K. rewrite cellat_upd by lia. destruct (Nat.eqb_spec p (length h)); [congruence|auto].
    + rewrite cellat_upd by lia. rewrite Nat.eqb_refl. auto.
    + split; [rewrite upd_length; lia|]. split; [|split].
      * intros p Lp. rewrite cellat_upd by lia. destruct (Nat.eqb_spec p (length h)); [lia|]. rewrite F by lia. apply app_raw_frame. auto.
      * intros p Lp. rewrite cellat_upd by lia. destruct (Nat.eqb_spec p (length h)) as [->|N].
        -- split; [left; auto|auto].
        -- split.
           ++ intros K. right. apply HE. right. split; [lia|auto].
           ++ intros [K|K]; [congruence|]. apply HE in K. simpl in K. tauto.
      * intros p [<-|K]; [auto|]. apply HE in K. simpl in K. lia.
  - assert (RP: cellat h1 (length h) = Raw).
    { destruct (Q (length h)) as (_ & Q2 & _). rewrite Q2; [apply raw_at|rewrite len_raw; lia|intros []]. }
    unfold free_raw. rewrite RP. eexists. split; [reflexivity|]. split; [rewrite upd_length; lia|]. split; [|split].
    + intros p Lp. rewrite cellat_upd by lia. destruct (Nat.eqb_spec p (length h)); [lia|]. destruct (Q p) as (_ & Q2 & _). rewrite Q2; [apply app_raw_frame; auto|rewrite len_raw; lia|intros []].
    + intros p Lp. rewrite cellat_upd by lia. destruct (Nat.eqb_spec p (length h)) as [->|N]; [split; [congruence|intros []]|].
      destruct (Q p) as (_ & _ & Q3). rewrite Q3 by (rewrite len_raw; lia). split; [congruence|intros []].
    + intros p [].
Qed.
Lemma new_array_ok n cp ds h fs vs ts A : cp_ok n cp -> ds_ok n ds -> ownsl h vs ts A -> (hmax ts <= n)%nat ->
  exists h' fs' r, new_array cp ds h fs vs = Ok (h', fs', r) /\ made h h' fs fs' r (JArr ts).
Proof.
  intros CP DS O H. unfold new_array. destruct (take fs) as [f fs1] eqn:T1. destruct f.
  { exists h, fs1, None. split; [auto|]. split; [apply grow_refl|]. intros E. destruct (take_nil _ _ _ T1 E). discriminate. }
  destruct (take fs1) as [f fs2] eqn:T2. destruct f.
  - unfold free_raw. rewrite raw_at. cbn [bind]. eexists _, fs2, None. split; [reflexivity|]. split.
    + split; [rewrite upd_length, len_raw; lia|]. split; [|split].
      * intros p L. rewrite cellat_upd by (rewrite len_raw; lia). destruct (Nat.eqb_spec p (length h)); [lia|]. apply app_raw_frame. auto.
      * intros p L. rewrite cellat_upd by (rewrite len_raw; lia). destruct (Nat.eqb_spec p (length h)) as [->|]; [split; [congruence|intros []]|].
        rewrite cellat_out by (rewrite len_raw; lia). split; [congruence|intros []].
      * intros p [].
    + intros E. destruct (take_nil _ _ _ T1 E) as [_ E1]. destruct (take_nil _ _ _ T2 E1). discriminate.
  - assert (O2: ownsl (h ++ [Raw]) vs ts A) by (apply (framel h); [auto|]; intros p K; apply app_raw_frame; exact (live_rangel _ _ _ _ _ O K)).
    destruct (copy_vec_ok n cp ds CP DS vs ts (h ++ [Raw]) fs2 [] [] [] (ownsl_sourced _ _ _ _ O2) H) as (h1 & fs3 & r & -> & Q & FS); [constructor|unfold hmax; simpl; lia|]. cbn [bind app] in *.
    assert (TT: fs = [] -> fs3 = [] /\ r <> None) by (intros E; destruct (take_nil _ _ _ T1 E) as [_ E1]; destruct (take_nil _ _ _ T2 E1); auto).
    destruct r as [vs'|].
    + pose proof (finish_new h h1 (Some vs') ts (CArr vs') Q) as (h2 & E & -> & K). destruct K as (K1 & K2 & K3 & K4); [discriminate|]. cbn [bind].
      eexists _, _, _. split; [reflexivity|]. split; [|intros EE; split; [apply TT; auto|discriminate]].
      exists (length h :: E). split; [econstructor; eauto|auto].
    + pose proof (finish_new h h1 None ts Dead Q) as (h2 & -> & K). cbn [bind].
      eexists _, _, _. split; [reflexivity|]. split; [auto|]. intros EE. destruct (TT EE). congruence.
Qed.
Lemma new_object_ok n cp ds h fs kvs kts A : cp_ok n cp -> ds_ok n ds -> ownsl h (map snd kvs) (map snd kts) A -> map fst kvs = map fst kts -> (hmax (map snd kts) <= n)%nat ->
  exists h' fs' r, new_object cp ds h fs kvs = Ok (h', fs', r) /\ made h h' fs fs' r (JObj kts).
Proof.
  intros CP DS O KE H. unfold new_object. destruct (take fs) as [f fs2] eqn:T1. destruct f.
  { exists h, fs2, None. split; [auto|]. split; [apply grow_refl|]. intros E. destruct (take_nil _ _ _ T1 E). discriminate. }
  assert (O2: ownsl (h ++ [Raw]) (map snd kvs) (map snd kts) A) by (apply (framel h); [auto|]; intros p K; apply app_raw_frame; exact (live_rangel _ _ _ _ _ O K)).
  destruct (copy_map_ok n cp ds CP DS kvs (map snd kts) (h ++ [Raw]) fs2 A [] [] [] O2 H) as (h1 & fs3 & r & -> & Q & KEYS & FS); [constructor|unfold hmax; simpl; lia|]. cbn [bind app] in *.
  assert (TT: fs = [] -> fs3 = [] /\ r <> None) by (intros E; destruct (take_nil _ _ _ T1 E) as [_ E1]; auto).
  destruct r as [vs'|]; cbn [option_map] in Q.
  - pose proof (finish_new h h1 (Some (map snd vs')) _ (CObj vs') Q) as (h2 & E & -> & K). destruct K as (K1 & K2 & K3 & K4); [discriminate|]. cbn [bind].
    eexists _, _, _. split; [reflexivity|]. split; [|intros EE; split; [apply TT; auto|discriminate]].
    exists (length h :: E). split; [|auto]. apply (o_obj _ _ vs'); auto. rewrite (KEYS vs' eq_refl). auto.
  - pose proof (finish_new h h1 None _ Dead Q) as (h2 & -> & K). cbn [bind].
    eexists _, _, _. split; [reflexivity|]. split; [auto|]. intros EE. destruct (TT EE). congruence.
Qed.
Lemma copy_ok n : cp_ok n (copy n).
Proof.
  induction n as [|n IH]; intros h fs v t A O H.
  { inversion O; subst; simpl in H; lia. }
  inversion O; subst; cbn [copy type_ ptn_]; rewrite ?addr_of_nat.
  - eexists _, _, _. split; [reflexivity|]. split; [|intros ->; split; congruence]. exists []. split; [constructor|apply grow_refl].
  - eexists _, _, _. split; [reflexivity|]. split; [|intros ->; split; congruence]. exists []. split; [constructor|apply grow_refl].
  - eexists _, _, _. split; [reflexivity|]. split; [|intros ->; split; congruence]. exists []. split; [constructor|apply grow_refl].
  - rewrite H0. destruct (new_string_ok h fs s) as (h1 & fs1 & r & -> & K & FS). cbn [bind]. eexists _, _, _. split; [reflexivity|]. destruct r as [q|]; cbn [option_map].
    + split; [exists [q]; auto|]. intros E. split; [apply FS; auto|discriminate].
    + split; [auto|]. intros E. destruct (FS E). congruence.
  - rewrite H0. cbn [height] in H. fold (hmax ts) in H. eapply new_array_ok; [exact IH|apply destroy_ok|eauto|lia].
  - rewrite H0. rewrite height_obj in H. eapply new_object_ok; [exact IH|apply destroy_ok|eauto|auto|lia].
Qed.

(** ** references *)
Lemma upd_nth_id {X} (l : list X) i x : nth_error l i = Some x -> upd l i x = l.
Proof. revert i. induction l; intros [|i] H; cbn in *; try discriminate; [congruence|]. f_equal. auto. Qed.
Lemma map_upd {X Y} (f : X -> Y) l i x : map f (upd l i x) = upd (map f l) i (f x).
Proof. revert i. induction l; intros [|i]; cbn; auto. f_equal. auto. Qed.
(** one element of a list of owned values *)
Lemma kid h vs ts A : ownsl h vs ts A -> forall i t, nth_error ts i = Some t ->
  exists v B C, nth_error vs i = Some v /\ owns h v t B /\ (forall p, In p A <-> In p B \/ In p C) /\ (forall p, In p B -> ~ In p C) /\
    (forall j v' t', j <> i -> nth_error vs j = Some v' -> nth_error ts j = Some t' -> exists B', owns h v' t' B' /\ forall p, In p B' -> In p C) /\
    forall h2 v' t' B', (forall p, In p C -> cellat h2 p = cellat h p) -> owns h2 v' t' B' -> (forall p, In p B' -> ~ In p C) ->
      exists A', ownsl h2 (upd vs i v') (upd ts i t') A' /\ forall p, In p A' <-> In p B' \/ In p C.
Proof.
  induction 1 as [|v vs t ts A1 A2 O1 O2 IH DJ]; intros i u H; [destruct i; discriminate|]. destruct i as [|i]; cbn [nth_error] in H.
  - injection H as <-. exists v, A1, A2. split; [auto|]. split; [auto|]. split; [intros; apply in_app_iff|]. split; [auto|]. split.
    + intros [|j] v' t' N E1 E2; [congruence|]. cbn in E1, E2. clear - O2 E1 E2. revert j E1 E2. induction O2; intros [|j] E1 E2; cbn in *; try discriminate.
      * injection E1 as <-. injection E2 as <-. exists A. split; [auto|]. intros p K. apply in_app_iff. auto.
      * destruct (IHO2 j E1 E2) as (B' & OB & HB). exists B'. split; [auto|]. intros p K. apply in_app_iff. auto.
    + intros h2 v' t' B' F O' D. exists (B' ++ A2). cbn [upd]. split; [|intros; apply in_app_iff]. constructor; auto. apply (framel h); auto.
  - destruct (IH i u H) as (w & B & C & E & OW & HA & D & OT & R). exists w, B, (A1 ++ C). split; [auto|]. split; [auto|]. split.
    { intros p. rewrite !in_app_iff, HA. tauto. }
    split. { intros p K. rewrite in_app_iff. intros [Q|Q]; [|apply (D p); auto]. apply (DJ p Q). apply HA. auto. }
    split.
    + intros [|j] v' t' N E1 E2; cbn in E1, E2.
      * injection E1 as <-. injection E2 as <-. exists A1. split; [auto|]. intros p K. apply in_app_iff. auto.
      * destruct (OT j v' t') as (B' & OB & HB); auto. exists B'. split; [auto|]. intros p K. apply in_app_iff. auto.
    + intros h2 v' t' B' F O' D'. destruct (R h2 v' t' B') as (A' & OA & HA'); auto.
      { intros p K. apply F. apply in_app_iff. auto. }
      { intros p K Q. apply (D' p K). apply in_app_iff. auto. }
      exists (A1 ++ A'). cbn [upd]. split.
      * constructor; auto.
        -- apply (frame h); auto. intros p K. apply F. apply in_app_iff. auto.
        -- intros p K Q. apply HA' in Q. destruct Q as [Q|Q]; [apply (D' p Q); apply in_app_iff; auto|]. apply (DJ p K). apply HA. auto.
      * intros p. rewrite !in_app_iff, HA'. tauto.
Qed.
Lemma container h v t A ts : owns h v t A -> tkids t = Some ts ->
  exists p vs A0, enter h v = Ok p /\ addr v = p /\ A = p :: A0 /\ ~ In p A0 /\ kids (cellat h p) = Some vs /\ ownsl h vs ts A0 /\
    forall h3 i v' t' A', cellat h3 p = set_kid (cellat h p) i v' -> (i < length vs)%nat -> ownsl h3 (upd vs i v') (upd ts i t') A' -> ~ In p A' ->
      owns h3 v (tset_kid t i t') (p :: A').
Proof.
  intros O E. inversion O; subst; cbn [tkids] in E; try discriminate; injection E as <-.
  - exists p, vs, A0. unfold enter. cbn [type_]. rewrite addr_of_nat, H. do 6 (split; [auto|]). intros h3 i v' t' A' C L O3 N. cbn [set_kid tset_kid] in *. econstructor; eauto.
  - exists p, (map snd kvs), A0. unfold enter. cbn [type_]. rewrite addr_of_nat, H. do 6 (split; [auto|]). intros h3 i v' t' A' C L O3 N. cbn [set_kid tset_kid] in *.
    rewrite map_length in L. destruct (nth_error kvs i) as [[k w]|] eqn:E1; [|apply nth_error_None in E1; lia].
    assert (LEN: length kvs = length kts) by (rewrite <- (map_length fst kvs), H0, map_length; auto).
    destruct (nth_error kts i) as [[k2 t2]|] eqn:E2; [|apply nth_error_None in E2; lia].
    assert (k = k2). { pose proof (map_nth_error fst _ _ E1) as X1. pose proof (map_nth_error fst _ _ E2) as X2. rewrite H0 in X1. cbn in *. congruence. }
    subst k2. apply (o_obj _ _ (upd kvs i (k, v'))); auto.
    + rewrite !map_upd. cbn [fst]. rewrite H0. auto.
    + rewrite !map_upd. auto.
Qed.
Lemma ownsl_length h vs ts A : ownsl h vs ts A -> length vs = length ts.
Proof. induction 1; simpl; congruence. Qed.

(** the place named by a path: its value, the cells around it, and what writing there does *)
Lemma deep : forall path t h v A i u, owns h v t A -> tget t (i :: path) = Some u ->
  exists p q j w B C, enter h v = Ok p /\ addr v = p /\ resolve h p (i :: path) = Ok (q, j) /\ read h (q, j) = Ok w /\ owns h w u B /\
    (forall x, In x A <-> In x B \/ In x C) /\ (forall x, In x B -> ~ In x C) /\ In q C /\
    forall h2 w' u' B', (forall x, In x C -> cellat h2 x = cellat h x) -> owns h2 w' u' B' -> (forall x, In x B' -> ~ In x C) ->
      exists h3 A3, write h2 (q, j) w' = Ok h3 /\ owns h3 v (tset t (i :: path) u') A3 /\ (forall x, In x A3 <-> In x B' \/ In x C) /\
        h3 = upd h2 q (set_kid (cellat h2 q) j w') /\ (q < length h2)%nat.
Proof.
  induction path as [|k path IH]; intros t h v A i u O G; cbn [tget] in G.
  - destruct (tkid t i) as [u0|] eqn:TK; [|discriminate]. injection G as ->. unfold tkid in TK. destruct (tkids t) as [ts|] eqn:TS; [|discriminate].
    destruct (container _ _ _ _ _ O TS) as (p & vs & A0 & EN & AD & -> & NI & KD & OL & RB).
    destruct (kid _ _ _ _ OL i u TK) as (w & B & C & EV & OW & HA & DJ & _ & R).
    assert (PR: (p < length h)%nat) by (apply (live_range _ _ _ _ _ O); left; auto).
    exists p, p, i, w, B, (p :: C). split; [auto|]. split; [auto|].
    assert (RD: read h (p, i) = Ok w) by (unfold read; cbn [fst snd]; rewrite KD, EV; auto).
    split; [cbn [resolve]; rewrite RD; auto|]. split; [auto|]. split; [auto|]. split; [intros x; cbn [In]; rewrite HA; tauto|]. split.
    { intros x K [Q|Q]; [subst; apply NI, HA; auto|apply (DJ x); auto]. }
    split; [left; auto|]. intros h2 w' u' B' F O' D'.
    destruct (R h2 w' u' B') as (A' & OA & HA'); [intros x K; apply F; right; auto|auto|intros x K Q; apply (D' x K); right; auto|].
    assert (CP: cellat h2 p = cellat h p) by (apply F; left; auto).
    assert (PR2: (p < length h2)%nat) by (apply cell_range; rewrite CP; destruct (cellat h p); cbn in KD; discriminate).
    assert (RD2: read h2 (p, i) = Ok w) by (unfold read; cbn [fst snd]; rewrite CP, KD, EV; auto).
    assert (NP: ~ In p A') by (rewrite HA'; intros [Q|Q]; [apply (D' p Q); left; auto|apply NI, HA; auto]).
    eexists _, (p :: A'). unfold write. rewrite RD2. cbn [bind fst snd]. split; [reflexivity|]. split; [|split; [|split; auto]].
    + cbn [tset]. unfold tkid. rewrite TS, TK. apply (RB _ i w' _ A'); auto.
      * rewrite cellat_upd, Nat.eqb_refl, CP by auto. auto.
      * apply nth_error_Some. congruence.
      * apply (framel h2); auto. intros x K. rewrite cellat_upd by auto. destruct (Nat.eqb_spec x p); [congruence|auto].
    + intros x. cbn [In]. rewrite HA'. tauto.
  - destruct (tkid t i) as [u0|] eqn:TK; [|discriminate]. pose proof TK as TK0. unfold tkid in TK. destruct (tkids t) as [ts|] eqn:TS; [|discriminate].
    destruct (container _ _ _ _ _ O TS) as (p & vs & A0 & EN & AD & -> & NI & KD & OL & RB).
    destruct (kid _ _ _ _ OL i u0 TK) as (w0 & B0 & C0 & EV & OW & HA & DJ & _ & R).
    destruct (IH u0 h w0 B0 k u OW G) as (p1 & q & j & w & B & C1 & EN1 & AD1 & RS & RD & OWW & HB & DJ1 & QC & RR).
    exists p, q, j, w, B, (p :: C0 ++ C1). split; [auto|]. split; [auto|].
    assert (RD0: read h (p, i) = Ok w0) by (unfold read; cbn [fst snd]; rewrite KD, EV; auto).
    split; [change (resolve h p (i :: k :: path)) with (let! v := read h (p, i) in let! q := enter h v in resolve h q (k :: path)); rewrite RD0; cbn [bind]; rewrite EN1; auto|].
    split; [auto|]. split; [auto|]. split; [intros x; cbn [In]; rewrite HA, in_app_iff, HB; tauto|]. split.
    { intros x K [Q|Q]; [subst; apply NI, HA; left; apply HB; auto|]. apply in_app_iff in Q. destruct Q as [Q|Q]; [apply (DJ x); auto; apply HB; auto|apply (DJ1 x); auto]. }
    split; [right; apply in_app_iff; auto|]. intros h2 w' u' B' F O' D'.
    destruct (RR h2 w' u' B') as (h3 & A3 & WR & O3 & HA3 & HH & QL); [intros x K; apply F; right; apply in_app_iff; auto|auto|intros x K Q; apply (D' x K); right; apply in_app_iff; auto|].
    assert (CP: cellat h2 p = cellat h p) by (apply F; left; auto).
    assert (QB: In q B0) by (apply HB; auto).
    assert (QP: q <> p) by (intros ->; apply NI, HA; auto).
    destruct (R h3 w0 (tset u0 (k :: path) u') A3) as (A' & OA & HA').
    { intros x K. rewrite HH, cellat_upd by auto. destruct (Nat.eqb_spec x q) as [->|]; [exfalso; apply (DJ q QB K)|]. apply F. right. apply in_app_iff. auto. }
    { auto. }
    { intros x K Q. apply HA3 in K. destruct K as [K|K]; [apply (D' x K); right; apply in_app_iff; auto|]. apply (DJ x); auto. apply HB. auto. }
    rewrite (upd_nth_id _ _ _ EV) in OA.
    exists h3, (p :: A'). split; [auto|]. split; [|split; [|auto]].
    + cbn [tset]. rewrite TK0. apply (RB h3 i w0 _ A'); auto.
      * rewrite HH, cellat_upd by auto. destruct (Nat.eqb_spec p q); [congruence|]. rewrite CP.
        destruct (cellat h p) as [| | |vs0|kvs0] eqn:CC; cbn [kids set_kid] in *; try discriminate; injection KD as <-.
        -- rewrite upd_nth_id; auto.
        -- rewrite nth_error_map in EV. destruct (nth_error kvs0 i) as [[kk ww]|] eqn:EK; [|discriminate]. cbn in EV. injection EV as ->. rewrite upd_nth_id; auto.
      * apply nth_error_Some. congruence.
      * rewrite (upd_nth_id _ _ _ EV). auto.
      * intros K. apply HA' in K. destruct K as [K|K]; [apply HA3 in K; destruct K as [K|K]; [apply (D' p K); left; auto|]; apply NI, HA; left; apply HB; auto|]. apply NI, HA. auto.
    + intros x. cbn [In]. rewrite HA', HA3, in_app_iff. tauto.
Qed.

(** ** statements *)
Definition rootv : val := V T_Array (Z.of_nat 0).
(** the variables are the trees ts and own the cells A; X are cells of temporaries; nothing else is allocated *)
Definition good (h : heap) (ts : list tree) (A X : list nat) : Prop :=
  owns h rootv (JArr ts) A /\ (forall p, cellat h p <> Dead <-> In p A \/ In p X) /\ (forall p, In p A -> ~ In p X).
Definition inv (h : heap) (ts : list tree) : Prop := exists A, good h ts A [].

Lemma root_inv h ts A : owns h rootv (JArr ts) A -> exists vs A0, cellat h 0 = CArr vs /\ ownsl h vs ts A0 /\ ~ In 0%nat A0 /\ A = 0%nat :: A0.
Proof.
  intros O. remember rootv as r eqn:R. remember (JArr ts) as tt eqn:T. destruct O; try discriminate. injection T as ->. unfold rootv in R.
  assert (p = 0%nat) by (injection R; lia). subst p. eauto 10.
Qed.
Lemma good_range h ts A X p : good h ts A X -> In p A \/ In p X -> (p < length h)%nat.
Proof. intros (_ & L & _) K. apply cell_range. apply L. auto. Qed.
Lemma good_grow h h' ts A X B : good h ts A X -> grow h h' B -> good h' ts A (B ++ X).
Proof.
  intros G. pose proof G as (O & L & D). intros (GL & GF & GN & GB). split; [|split].
  - apply (frame h); auto. intros p K. apply GF. apply (good_range _ _ _ _ p G). auto.
  - intros p. rewrite in_app_iff. destruct (lt_dec p (length h)) as [Lp|Lp].
    + rewrite GF by auto. rewrite L. split; [tauto|]. intros [K|[K|K]]; auto. specialize (GB p K). lia.
    + rewrite GN by lia. split; [auto|]. intros [K|[K|K]]; auto; pose proof (good_range _ _ _ _ p G); exfalso; [assert (p < length h)%nat by auto; lia|assert (p < length h)%nat by auto; lia].
  - intros p K. rewrite in_app_iff. intros [Q|Q]; [|apply (D p); auto]. specialize (GB p Q). pose proof (good_range _ _ _ _ p G (or_introl K)). lia.
Qed.
Lemma good_ext h ts A X X' : (forall p, In p X <-> In p X') -> good h ts A X -> good h ts A X'.
Proof. intros E (O & L & D). split; [auto|]. split; [intros p; rewrite <- E; auto|intros p K; rewrite <- E; auto]. Qed.
(** giving back temporaries *)
Lemma good_freed h h' ts A X B : good h ts A (B ++ X) -> (forall p, In p B -> ~ In p X) -> freed h h' B -> good h' ts A X.
Proof.
  intros (O & L & D) N (FL & F). assert (AB: forall p, In p A -> ~ In p B) by (intros p K Q; apply (D p K), in_app_iff; auto). split; [|split].
  - apply (frame h); auto. intros p K. apply F. auto.
  - intros p. destruct (F p) as [F1 F2]. destruct (in_dec Nat.eq_dec p B) as [K|K].
    + rewrite F1 by auto. split; [congruence|]. intros [Q|Q]; exfalso; [apply (AB p); auto|apply (N p); auto].
    + rewrite F2 by auto. rewrite L, in_app_iff. tauto.
  - intros p K Q. apply (D p K). apply in_app_iff. auto.
Qed.
Lemma good_push h ts A X v t B : good h ts A (B ++ X) -> owns h v t B -> (forall p, In p B -> ~ In p X) ->
  exists h' A', push_var h v = Ok h' /\ good h' (ts ++ [t]) A' X /\ length h' = length h /\ (forall p, In p X -> cellat h' p = cellat h p).
Proof.
  intros G OV N. pose proof G as (O & L & D).
  assert (R0: forall p, In p A -> (p < length h)%nat) by (intros; apply (good_range _ _ _ _ p G); auto).
  destruct (root_inv _ _ _ O) as (vs & A0 & CC & OL & NI & ->).
  unfold push_var. rewrite CC. assert (L0: (0 < length h)%nat) by (apply R0; left; auto).
  assert (B0: ~ In 0%nat B) by (intros K; apply (D 0%nat); [left; auto|apply in_app_iff; auto]).
  assert (X0: ~ In 0%nat X) by (intros K; apply (D 0%nat); [left; auto|apply in_app_iff; auto]).
  eexists _, (0%nat :: A0 ++ B). split; [reflexivity|]. split; [|split; [apply upd_length|]].
  - assert (FR: forall p, p <> 0%nat -> cellat (upd h 0 (CArr (vs ++ [v]))) p = cellat h p).
    { intros p Hp. rewrite cellat_upd by auto. destruct (Nat.eqb_spec p 0); [congruence|auto]. }
    split; [|split].
    + apply (o_arr _ 0%nat (vs ++ [v])).
      * rewrite cellat_upd by auto. auto.
      * apply ownsl_app; [|apply ownsl_one|].
        -- apply (framel h); auto. intros p K. apply FR. congruence.
        -- apply (frame h); auto. intros p K. apply FR. congruence.
        -- intros p K Q. apply (D p); [right; auto|apply in_app_iff; auto].
      * rewrite in_app_iff. tauto.
    + intros p. destruct (Nat.eq_dec p 0) as [->|Hp].
      * rewrite cellat_upd by auto. cbn [Nat.eqb]. split; [intros _; left; left; auto|discriminate].
      * rewrite FR by auto. rewrite L. cbn [In]. rewrite !in_app_iff. tauto.
    + intros p [<-|K]; [auto|]. apply in_app_iff in K. destruct K as [K|K]; [|auto]. intros Q. apply (D p); [right; auto|apply in_app_iff; auto].
  - intros p K. rewrite cellat_upd by auto. destruct (Nat.eqb_spec p 0) as [->|]; [tauto|auto].
Qed.

Lemma vget_inv ts path u : vget ts path = Some u -> exists i rest, path = i :: rest /\ tget (JArr ts) (i :: rest) = Some u.
Proof. destruct path as [|i rest]; cbn [vget]; [discriminate|]. eauto. Qed.
Lemma vset_tree ts path u w : vget ts path = Some u -> JArr (vset ts path w) = tset (JArr ts) path w.
Proof.
  intros H. destruct (vget_inv _ _ _ H) as (i & rest & -> & G). unfold vset. cbn [tset tget] in *.
  destruct (tkid (JArr ts) i) as [k|]; [|discriminate]. cbn [tset_kid]. auto.
Qed.
(** reading the place a path names *)
Lemma place h ts A X path u : good h ts A X -> vget ts path = Some u -> exists r w, resolve h 0 path = Ok r /\ read h r = Ok w /\ sourced h w u.
Proof.
  intros (O & _) H. destruct (vget_inv _ _ _ H) as (i & rest & -> & G).
  destruct (deep rest _ _ _ _ i u O G) as (p & q & j & w & B & C & EN & AD & RS & RD & OW & _). cbn in AD. subst p. exists (q, j), w. split; [auto|]. split; [auto|]. exists B. auto.
Qed.

(** operator=: the value is replaced, or (no memory) nothing has changed; rhs may be any value, also one
    inside the destination or around it *)
Lemma assign_ref_ok h ts A X fs dst d0 d rhs t : good h ts A X -> vget ts dst = Some d0 -> resolve h 0 dst = Ok d -> sourced h rhs t ->
  exists h' fs' r, assign_ref h fs d rhs = Ok (h', fs', r) /\ (forall p, In p X -> cellat h' p = cellat h p) /\
    match r with None => good h' ts A X | Some _ => exists A', good h' (vset ts dst t) A' X end /\ (fs = [] -> fs' = [] /\ r <> None).
Proof.
  intros G VG RS (BR & OR). unfold assign_ref.
  destruct (copy_ok (depth h) h fs rhs t BR OR (height_depth _ _ _ _ OR)) as (h1 & fs1 & r & -> & M & FS). cbn [bind]. destruct r as [tmp|].
  2:{ exists h1, fs1, None. split; [auto|]. split; [intros p K; apply M; apply (good_range _ _ _ _ p G); auto|]. split; [|intros E; destruct (FS E); congruence]. apply (good_grow _ _ _ _ X [] G M). }
  destruct M as (B' & OT & GR). pose proof (good_grow _ _ _ _ _ _ G GR) as G1. pose proof G as (O & L & D). pose proof GR as (GL & GF & GN & GB).
  destruct (vget_inv _ _ _ VG) as (i & rest & -> & TG).
  destruct (deep rest _ _ _ _ i d0 O TG) as (p & q & j & w & B & C & EN & AD & RS' & RD & OW & HA & DJ & QC & R). cbn in AD. subst p.
  rewrite RS in RS'. injection RS' as ->.
  assert (AR: forall x, In x A -> (x < length h)%nat) by (intros; apply (good_range _ _ _ _ x G); auto).
  assert (CA: forall x, In x C -> In x A) by (intros; apply HA; auto).
  assert (BA: forall x, In x B -> In x A) by (intros; apply HA; auto).
  assert (RD1: read h1 (q, j) = Ok w) by (unfold read in *; cbn [fst snd] in *; rewrite GF by auto; auto).
  rewrite RD1. cbn [bind]. unfold swap_val. replace (V (type_ tmp) (ptn_ tmp)) with tmp by (destruct tmp; auto). replace (V (type_ w) (ptn_ w)) with w by (destruct w; auto).
  destruct (R h1 tmp t B') as (h3 & A3 & -> & O3 & HA3 & H3 & QL); [intros x K; apply GF; auto|auto|intros x K Q; specialize (GB x K); specialize (AR x (CA x Q)); lia|]. cbn [bind].
  assert (FR3: forall x, x <> q -> cellat h3 x = cellat h1 x) by (intros x N; rewrite H3, cellat_upd by auto; destruct (Nat.eqb_spec x q); [congruence|auto]).
  assert (OW3: owns h3 w d0 B).
  { apply (frame h); auto. intros x K. rewrite FR3; [apply GF; auto|]. intros ->. apply (DJ q K QC). }
  destruct (destroy_ok (depth h3) h3 w d0 B OW3 (height_depth _ _ _ _ OW3)) as (h4 & -> & FL & F4). cbn [bind].
  exists h4, fs1, (Some tt). split; [auto|].
  assert (XA: forall x, In x X -> x <> q /\ ~ In x B /\ (x < length h)%nat).
  { intros x K. split; [intros ->; apply (D q); auto|]. split; [intros Q; apply (D x); auto|]. apply (good_range _ _ _ _ x G). auto. }
  split. { intros x K. destruct (XA x K) as (X1 & X2 & X3). destruct (F4 x) as [_ F42]. rewrite F42, FR3 by auto. apply GF. auto. }
  split; [|intros E; split; [apply FS; auto|discriminate]].
  assert (G3: good h3 (vset ts (i :: rest) t) A3 (B ++ X)).
  { split; [|split].
    - rewrite (vset_tree _ _ _ _ VG). auto.
    - intros x. destruct (Nat.eq_dec x q) as [->|N].
      + split; [intros _; left; apply HA3; auto|]. intros _. apply (proj1 (live_both h3) _ _ _ O3). apply HA3. auto.
      + rewrite FR3 by auto. destruct G1 as (_ & L1 & _). rewrite L1, !in_app_iff, HA3, HA. tauto.
    - intros x K. rewrite in_app_iff. apply HA3 in K. intros [Q|Q].
      + destruct K as [K|K]; [|apply (DJ x); auto]. specialize (GB x K). specialize (AR x (BA x Q)). lia.
      + destruct K as [K|K]; [|apply (D x); auto]. specialize (GB x K). specialize (XA x Q). lia. }
  exists A3. apply (good_freed h3 h4 _ _ _ B); [exact G3|intros x K Q; destruct (XA x Q) as (_ & X2 & _); auto|split; [exact FL|exact F4]].
Qed.

Lemma make_ok h fs l : exists h' fs' r, make h fs l = Ok (h', fs', r) /\ made h h' fs fs' r (lit_tree l).
Proof.
  destruct l; cbn [make lit_tree].
  - eexists _, _, _. split; [reflexivity|]. split; [|intros ->; split; congruence]. exists []. split; [constructor|apply grow_refl].
  - eexists _, _, _. split; [reflexivity|]. split; [|intros ->; split; congruence]. exists []. split; [constructor|apply grow_refl].
  - eexists _, _, _. split; [reflexivity|]. split; [|intros ->; split; congruence]. exists []. split; [constructor|apply grow_refl].
  - destruct (new_string_ok h fs s) as (h1 & fs1 & r & -> & K & FS). cbn [bind]. eexists _, _, _. split; [reflexivity|]. destruct r as [q|]; cbn [option_map].
    + split; [exists [q]; auto|]. intros E. split; [apply FS; auto|discriminate].
    + split; [auto|]. intros E. destruct (FS E). congruence.
Qed.
Lemma reads_ok h ts A X : good h ts A X -> forall ps us, vgets ts ps = Some us -> exists vs, reads h ps = Ok vs /\ Forall2 (sourced h) vs us.
Proof.
  intros G. induction ps as [|p ps IH]; intros us H; cbn [vgets reads] in *; [injection H as <-; eauto|].
  destruct (vget ts p) as [t|] eqn:E1; [|discriminate]. destruct (vgets ts ps) as [l|] eqn:E2; [|discriminate]. injection H as <-.
  destruct (place _ _ _ _ _ _ G E1) as (r & w & -> & RD & S). cbn [bind]. rewrite RD. cbn [bind]. destruct (IH l eq_refl) as (vs & -> & F). cbn [bind]. eauto.
Qed.
Lemma sourced_height h vs ts : Forall2 (sourced h) vs ts -> (hmax ts <= depth h)%nat.
Proof. induction 1 as [|v t vs ts (A & O) F IH]; [unfold hmax; simpl; lia|]. apply hmax_cons. split; [|auto]. exact (height_depth _ _ _ _ O). Qed.

(** the outcome of a statement: done, or thrown without any effect *)
Definition outcome (h' : heap) (ts ts' : list tree) (fs fs' : list bool) (r : option unit) : Prop :=
  match r with Some _ => inv h' ts' | None => inv h' ts end /\ (fs = [] -> r <> None).
Lemma via_local_ok h ts A fs vs us mk (T : tree) : good h ts A [] -> Forall2 (sourced h) vs us ->
  (forall h1 fs1 es E, ownsl h1 es us E -> exists h' fs' r, mk h1 fs1 es = Ok (h', fs', r) /\ made h1 h' fs1 fs' r T) ->
  exists h' fs' r, via_local h fs vs mk = Ok (h', fs', r) /\ outcome h' ts (ts ++ [T]) fs fs' r.
Proof.
  intros G S MK. unfold via_local.
  destruct (copy_vec_ok (depth h) (copy (depth h)) (destroy (depth h)) (copy_ok _) (destroy_ok _) vs us h fs [] [] [] S (sourced_height _ _ _ S)) as (h1 & fs1 & r & -> & [L Q] & FS); [constructor|unfold hmax; simpl; lia|].
  cbn [bind app] in *. destruct r as [es|].
  2:{ exists h1, fs1, None. split; [auto|]. split; [|intros E; destruct (FS E); congruence]. exists A. apply (good_grow h h1 ts A [] [] G). split; [auto|]. split; [|split; [|intros ? []]].
      - intros p Lp. destruct (Q p) as (_ & Q2 & _). apply Q2; auto.
      - intros p Lp. destruct (Q p) as (_ & _ & Q3). rewrite Q3 by auto. split; [congruence|intros []]. }
  destruct Q as [F (E & OE & HE)].
  assert (GR: grow h h1 E).
  { split; [auto|]. split; [auto|]. split; [|intros p K; apply HE in K; simpl in K; lia]. intros p Lp. rewrite HE. simpl. tauto. }
  pose proof (good_grow _ _ _ _ _ _ G GR) as G1. rewrite app_nil_r in G1.
  destruct (MK h1 fs1 es E OE) as (h2 & fs2 & r & -> & M & FS2). cbn [bind]. destruct r as [v|].
  - destruct M as (B & OV & GR2). pose proof (good_grow _ _ _ _ _ _ G1 GR2) as G2. pose proof GR2 as (GL & GF & GN & GB).
    assert (ER: forall p, In p E -> (p < length h1)%nat) by (intros; exact (live_rangel _ _ _ _ _ OE H)).
    assert (BE: forall p, In p B -> ~ In p E) by (intros p K Q; specialize (GB p K); specialize (ER p Q); lia).
    destruct (good_push _ _ _ _ v T B G2 OV BE) as (h3 & A3 & -> & G3 & L3 & X3). cbn [bind].
    assert (OE3: ownsl h3 es us E) by (apply (framel h1); auto; intros p K; rewrite X3 by auto; apply GF; auto).
    destruct (destroy_all_ok (depth h3) (destroy (depth h3)) (destroy_ok _) es us h3 E OE3 (height_depthl _ _ _ _ OE3)) as (h4 & -> & F4). cbn [bind].
    exists h4, fs2, (Some tt). split; [auto|]. split; [|discriminate]. exists A3. apply (good_freed h3 h4 _ A3 [] E); auto. rewrite app_nil_r. auto.
  - pose proof (good_grow _ _ _ _ _ _ G1 M) as G2. cbn [app] in G2. destruct M as (GL & GF & GN & GB).
    assert (OE2: ownsl h2 es us E) by (apply (framel h1); auto; intros p K; apply GF; exact (live_rangel _ _ _ _ _ OE K)).
    destruct (destroy_all_ok (depth h2) (destroy (depth h2)) (destroy_ok _) es us h2 E OE2 (height_depthl _ _ _ _ OE2)) as (h4 & -> & F4). cbn [bind].
    exists h4, fs2, None. split; [auto|]. split.
    + exists A. apply (good_freed h2 h4 _ A [] E); auto. rewrite app_nil_r. auto.
    + intros EE. destruct (FS EE) as [-> _]. destruct (FS2 eq_refl). congruence.
Qed.

(** ** swap of two places that do not overlap *)
Lemma resolve_frame : forall path t h h' v A i u, owns h v t A -> tget t (i :: path) = Some u -> (forall x, In x A -> cellat h' x = cellat h x) ->
  resolve h' (addr v) (i :: path) = resolve h (addr v) (i :: path) /\ forall r, resolve h (addr v) (i :: path) = Ok r -> In (fst r) A.
Proof.
  induction path as [|k path IH]; intros t h h' v A i u O G F; cbn [tget] in G;
    (destruct (tkid t i) as [u0|] eqn:TK; [|discriminate]); unfold tkid in TK; (destruct (tkids t) as [ts|] eqn:TS; [|discriminate]);
    destruct (container _ _ _ _ _ O TS) as (p & vs & A0 & EN & AD & -> & NI & KD & OL & _); destruct (kid _ _ _ _ OL i u0 TK) as (w & B & C & EV & OW & HA & _); rewrite AD.
  - assert (RE: read h' (p, i) = read h (p, i)) by (unfold read; cbn [fst]; rewrite F by (left; auto); auto).
    cbn [resolve]. rewrite RE. split; [auto|]. intros r. unfold read. cbn [fst snd]. rewrite KD, EV. cbn [bind]. intros E. injection E as <-. left. auto.
  - assert (RE: read h' (p, i) = read h (p, i)) by (unfold read; cbn [fst]; rewrite F by (left; auto); auto).
    assert (RW: read h (p, i) = Ok w) by (unfold read; cbn [fst snd]; rewrite KD, EV; auto).
    change (resolve h' p (i :: k :: path)) with (let! v := read h' (p, i) in let! q := enter h' v in resolve h' q (k :: path)).
    change (resolve h p (i :: k :: path)) with (let! v := read h (p, i) in let! q := enter h v in resolve h q (k :: path)).
    rewrite RE, RW. cbn [bind].
    assert (FB: forall x, In x B -> cellat h' x = cellat h x) by (intros x K; apply F; right; apply HA; auto).
    destruct (IH u0 h h' w B k u OW G FB) as [R1 R2].
    destruct (deep path _ _ _ _ k u OW G) as (p1 & q & j & w1 & B1 & C1 & EN1 & AD1 & _).
    destruct (deep path _ _ _ _ k u (frame _ h' _ _ _ OW FB) G) as (p2 & q2 & j2 & w2 & B2 & C2 & EN2 & AD2 & _).
    rewrite EN1, EN2. cbn [bind]. rewrite <- AD1, <- AD2. split; [exact R1|]. intros r E. right. apply HA. left. apply R2. auto.
Qed.
Lemma kids_set_kid c i v vs : kids c = Some vs -> kids (set_kid c i v) = Some (upd vs i v).
Proof.
  destruct c as [| | |l|l]; cbn; intros E; try discriminate; injection E as <-; [auto|].
  destruct (nth_error l i) as [[k w]|] eqn:N; [rewrite map_upd; auto|].
  f_equal. apply nth_error_None in N. clear - N. revert i N. induction l as [|a l IH]; intros [|i] N; cbn in *; auto; [lia|]. f_equal. apply IH. lia.
Qed.
Lemma enter_kind h h' v p : enter h v = Ok p -> (forall x, cellat h' x = cellat h x \/ exists i w, cellat h' x = set_kid (cellat h x) i w) -> enter h' v = Ok p.
Proof.
  intros E K. unfold enter in *. destruct (K (addr v)) as [->|(i & w & ->)]; [auto|].
  destruct (type_ v), (cellat h (addr v)); cbn [set_kid]; auto; discriminate.
Qed.
Lemma stable : forall a b t h h3 v A ua ub qa ja rb w', owns h v t A -> apart a b = true -> a <> [] -> b <> [] -> tget t a = Some ua -> tget t b = Some ub ->
  resolve h (addr v) a = Ok (qa, ja) -> resolve h (addr v) b = Ok rb ->
  (forall x, x <> qa -> cellat h3 x = cellat h x) -> cellat h3 qa = set_kid (cellat h qa) ja w' ->
  resolve h3 (addr v) b = Ok rb /\ rb <> (qa, ja) /\ read h3 rb = read h rb.
Proof.
  induction a as [|i a IH]; intros b t h h3 v A ua ub qa ja rb w' O AP NA NB GA GB RA RB F3 FQ; [congruence|]. destruct b as [|j b]; [congruence|].
  assert (KIND: forall x, cellat h3 x = cellat h x \/ exists i w, cellat h3 x = set_kid (cellat h x) i w).
  { intros x. destruct (Nat.eq_dec x qa) as [->|]; [right; eauto|left; auto]. }
  cbn [apart] in AP. pose proof GA as GA0. pose proof GB as GB0. cbn [tget] in GA, GB.
  destruct (tkid t i) as [ui|] eqn:TKi; [|discriminate]. destruct (tkid t j) as [uj|] eqn:TKj; [|discriminate].
  unfold tkid in TKi, TKj. destruct (tkids t) as [ts|] eqn:TS; [|discriminate].
  destruct (container _ _ _ _ _ O TS) as (p & vs & A0 & EN & AD & -> & NI & KD & OL & _). rewrite AD in *.
  destruct (kid _ _ _ _ OL i ui TKi) as (wi & Bi & Ci & EVi & OWi & HA & DJ & OT & _).
  assert (RWi: read h (p, i) = Ok wi) by (unfold read; cbn [fst snd]; rewrite KD, EVi; auto).
  destruct (Nat.eqb_spec i j) as [<-|NE].
  - rewrite TKi in TKj. injection TKj as <-. destruct a as [|i2 a]; [cbn in AP; discriminate|]. destruct b as [|j2 b]; [cbn in AP; discriminate|].
    change (resolve h p (i :: i2 :: a)) with (let! v := read h (p, i) in let! q := enter h v in resolve h q (i2 :: a)) in RA.
    change (resolve h p (i :: j2 :: b)) with (let! v := read h (p, i) in let! q := enter h v in resolve h q (j2 :: b)) in RB.
    change (resolve h3 p (i :: j2 :: b)) with (let! v := read h3 (p, i) in let! q := enter h3 v in resolve h3 q (j2 :: b)).
    rewrite RWi in RA, RB. cbn [bind] in RA, RB.
    destruct (deep a _ _ _ _ i2 ua OWi GA) as (p1 & q & j1 & w1 & B1 & C1 & EN1 & AD1 & RS1 & _ & _ & HB1 & _ & QC1 & _).
    rewrite EN1 in RA, RB. cbn [bind] in RA, RB. rewrite RS1 in RA. injection RA as -> ->.
    assert (QP: qa <> p) by (intros ->; apply NI, HA; left; apply HB1; auto).
    assert (R3: read h3 (p, i) = Ok wi) by (rewrite <- RWi; unfold read; cbn [fst]; rewrite F3 by auto; auto).
    rewrite R3. cbn [bind]. rewrite (enter_kind h h3 wi p1 EN1 KIND). cbn [bind]. rewrite <- AD1 in *.
    apply (IH (j2 :: b) ui h h3 wi Bi ua ub qa ja rb w'); auto; discriminate.
  - destruct (nth_error vs j) as [wj|] eqn:EVj; [|apply nth_error_None in EVj; rewrite (ownsl_length _ _ _ _ OL) in EVj; apply nth_error_None in EVj; congruence].
    destruct (OT j wj uj) as (Bj & OWj & HBj); auto.
    assert (RWj: read h (p, j) = Ok wj) by (unfold read; cbn [fst snd]; rewrite KD, EVj; auto).
    (* where the write goes *)
    assert (WH: (qa = p /\ ja = i) \/ In qa Bi).
    { destruct a as [|i2 a].
      - left. cbn [resolve] in RA. rewrite RWi in RA. injection RA as <- <-. auto.
      - right. change (resolve h p (i :: i2 :: a)) with (let! v := read h (p, i) in let! q := enter h v in resolve h q (i2 :: a)) in RA.
        rewrite RWi in RA. cbn [bind] in RA.
        destruct (deep a _ _ _ _ i2 ua OWi GA) as (p1 & q & j1 & w1 & B1 & C1 & EN1 & AD1 & RS1 & _ & _ & HB1 & _ & QC1 & _).
        rewrite EN1 in RA. cbn [bind] in RA. rewrite RS1 in RA. injection RA as -> ->. apply HB1. auto. }
    assert (QBj: ~ In qa Bj).
    { intros K. apply HBj in K. destruct WH as [[-> _]|Q]; [apply NI, HA; auto|apply (DJ qa); auto]. }
    assert (R3: read h3 (p, j) = Ok wj).
    { destruct WH as [[-> ->]|Q].
      - unfold read. cbn [fst snd]. rewrite FQ, (kids_set_kid _ _ _ _ KD), nth_error_upd_ne by auto. rewrite EVj. auto.
      - assert (QP: qa <> p) by (intros ->; apply NI, HA; auto). rewrite <- RWj. unfold read. cbn [fst]. rewrite F3 by auto. auto. }
    destruct b as [|j2 b].
    + cbn [resolve] in *. rewrite RWj in RB. rewrite R3. cbn [bind] in *. injection RB as <-. split; [auto|]. split; [|congruence].
      intros E. injection E as E1 E2. destruct WH as [[_ ->]|Q]; [congruence|]. subst qa. apply NI, HA. auto.
    + change (resolve h p (j :: j2 :: b)) with (let! v := read h (p, j) in let! q := enter h v in resolve h q (j2 :: b)) in RB.
      change (resolve h3 p (j :: j2 :: b)) with (let! v := read h3 (p, j) in let! q := enter h3 v in resolve h3 q (j2 :: b)).
      rewrite RWj in RB. rewrite R3. cbn [bind] in *.
      destruct (deep b _ _ _ _ j2 ub OWj GB) as (p1 & q & j1 & w1 & B1 & C1 & EN1 & AD1 & RS1 & _).
      rewrite EN1 in RB. rewrite (enter_kind h h3 wj p1 EN1 KIND). cbn [bind] in *. rewrite <- AD1 in *.
      assert (FB: forall x, In x Bj -> cellat h3 x = cellat h x) by (intros x K; apply F3; congruence).
      destruct (resolve_frame b uj h h3 wj Bj j2 ub OWj GB FB) as [E1 E2]. rewrite E1. split; [auto|].
      pose proof (E2 rb RB) as IN. split; [intros ->; cbn in IN; auto|]. unfold read. rewrite FB by auto. auto.
Qed.
Lemma upd_upd_same {X} (l : list X) i a b : upd (upd l i a) i b = upd l i b.
Proof. revert i. induction l; intros [|i]; cbn; auto. f_equal. auto. Qed.
Lemma upd_comm {X} (l : list X) i j a b : i <> j -> upd (upd l i a) j b = upd (upd l j b) i a.
Proof. revert i j. induction l; intros [|i] [|j] N; cbn; auto; try congruence. f_equal. apply IHl. congruence. Qed.
Lemma tkid_set t i j u k : tkid t i = Some k -> tkid (tset_kid t i u) j = if Nat.eqb i j then Some u else tkid t j.
Proof.
  unfold tkid. destruct t; cbn [tkids tset_kid]; try discriminate; intros H.
  - destruct (Nat.eqb_spec i j) as [<-|N]; [apply nth_error_upd_eq; apply nth_error_Some; congruence|apply nth_error_upd_ne; auto].
  - rewrite nth_error_map in H. destruct (nth_error l i) as [[kk x]|] eqn:E; [|discriminate]. cbn [tkids]. rewrite !nth_error_map.
    destruct (Nat.eqb_spec i j) as [<-|N]; [rewrite nth_error_upd_eq by (apply nth_error_Some; congruence); auto|rewrite nth_error_upd_ne by auto; auto].
Qed.
Lemma tset_kid_twice t i u w : tset_kid (tset_kid t i u) i w = tset_kid t i w.
Proof.
  destruct t; cbn [tset_kid]; auto; [rewrite upd_upd_same; auto|]. destruct (nth_error l i) as [[k x]|] eqn:E; [|rewrite E; auto].
  rewrite nth_error_upd_eq by (apply nth_error_Some; congruence). rewrite upd_upd_same. auto.
Qed.
Lemma tset_kid_comm t i j u w : i <> j -> tset_kid (tset_kid t i u) j w = tset_kid (tset_kid t j w) i u.
Proof.
  intros N. destruct t; cbn [tset_kid]; auto; [rewrite upd_comm by auto; auto|].
  destruct (nth_error l i) as [[k x]|] eqn:E; destruct (nth_error l j) as [[k2 y]|] eqn:E2; rewrite ?E, ?E2, ?nth_error_upd_ne, ?E, ?E2 by auto; auto.
  rewrite upd_comm by auto. auto.
Qed.
Lemma tset_twice : forall a t n x ua, tget t a = Some ua -> tset (tset t a n) a x = tset t a x.
Proof.
  induction a as [|i a IH]; intros t n x ua G; [reflexivity|]. cbn [tget tset] in *. destruct (tkid t i) as [u|] eqn:E; [|discriminate].
  rewrite (tkid_set t i i _ u E), Nat.eqb_refl, tset_kid_twice. rewrite (IH u n x ua G). auto.
Qed.
Lemma tset_swap : forall a b t n x y ua ub, apart a b = true -> tget t a = Some ua -> tget t b = Some ub ->
  tget (tset t a n) b = Some ub /\ tset (tset (tset t a n) b y) a x = tset (tset t a x) b y.
Proof.
  induction a as [|i a IH]; intros b t n x y ua ub AP GA GB; [cbn in AP; discriminate|]. destruct b as [|j b]; [cbn in AP; discriminate|].
  cbn [apart] in AP. cbn [tget tset] in *. destruct (tkid t i) as [ui|] eqn:TI; [|discriminate]. destruct (tkid t j) as [uj|] eqn:TJ; [|discriminate].
  rewrite !(tkid_set t i j _ ui TI). destruct (Nat.eqb_spec i j) as [<-|N].
  - rewrite TI in TJ. injection TJ as <-. destruct (IH b ui n x y ua ub AP GA GB) as [E1 E2]. split; [auto|].
    rewrite !tset_kid_twice. rewrite (tkid_set t i i _ ui TI), Nat.eqb_refl, tset_kid_twice. rewrite E2. auto.
  - rewrite TJ. split; [auto|]. rewrite (tkid_set (tset_kid t i (tset ui a n)) j i _ uj) by (rewrite (tkid_set t i j _ ui TI); destruct (Nat.eqb_spec i j); [congruence|auto]).
    destruct (Nat.eqb_spec j i); [congruence|]. rewrite (tkid_set t i i _ ui TI), Nat.eqb_refl.
    rewrite (tset_kid_comm _ j i) by auto. rewrite tset_kid_twice, (tset_twice a ui n x ua GA). auto.
Qed.
Lemma same_place : forall path t h h3 v A i u q j w', owns h v t A -> tget t (i :: path) = Some u -> resolve h (addr v) (i :: path) = Ok (q, j) ->
  (forall x, x <> q -> cellat h3 x = cellat h x) -> cellat h3 q = set_kid (cellat h q) j w' -> resolve h3 (addr v) (i :: path) = Ok (q, j).
Proof.
  induction path as [|k path IH]; intros t h h3 v A i u q j w' O G RS F FQ; cbn [tget] in G;
    (destruct (tkid t i) as [u0|] eqn:TK; [|discriminate]); unfold tkid in TK; (destruct (tkids t) as [ts|] eqn:TS; [|discriminate]);
    destruct (container _ _ _ _ _ O TS) as (p & vs & A0 & EN & AD & -> & NI & KD & OL & _); destruct (kid _ _ _ _ OL i u0 TK) as (w & B & C & EV & OW & HA & _); rewrite AD in *.
  - assert (RW: read h (p, i) = Ok w) by (unfold read; cbn [fst snd]; rewrite KD, EV; auto).
    cbn [resolve] in *. rewrite RW in RS. injection RS as <- <-. unfold read. cbn [fst snd]. rewrite FQ, (kids_set_kid _ _ _ _ KD), nth_error_upd_eq; [auto|].
    apply nth_error_Some. congruence.
  - assert (RW: read h (p, i) = Ok w) by (unfold read; cbn [fst snd]; rewrite KD, EV; auto).
    change (resolve h p (i :: k :: path)) with (let! v := read h (p, i) in let! q := enter h v in resolve h q (k :: path)) in RS.
    change (resolve h3 p (i :: k :: path)) with (let! v := read h3 (p, i) in let! q := enter h3 v in resolve h3 q (k :: path)).
    rewrite RW in RS. cbn [bind] in RS.
    destruct (deep path _ _ _ _ k u OW G) as (p1 & q1 & j1 & w1 & B1 & C1 & EN1 & AD1 & RS1 & _ & _ & HB1 & _ & QC1 & _).
    rewrite EN1 in RS. cbn [bind] in RS. rewrite RS1 in RS. injection RS as -> ->.
    assert (QP: q <> p) by (intros ->; apply NI, HA; left; apply HB1; auto).
    assert (R3: read h3 (p, i) = Ok w) by (rewrite <- RW; unfold read; cbn [fst]; rewrite F by auto; auto).
    rewrite R3. cbn [bind]. rewrite (enter_kind h h3 w p1 EN1).
    2:{ intros x. destruct (Nat.eq_dec x q) as [->|]; [right; eauto|left; auto]. }
    cbn [bind]. rewrite <- AD1 in *. apply (IH u0 h h3 w B k u q j w'); auto.
Qed.
Lemma set_kid_twice c i u w : set_kid (set_kid c i u) i w = set_kid c i w.
Proof.
  destruct c as [| | |l|l]; cbn [set_kid]; auto; [rewrite upd_upd_same; auto|]. destruct (nth_error l i) as [[k x]|] eqn:E; [|rewrite E; auto].
  rewrite nth_error_upd_eq by (apply nth_error_Some; congruence). rewrite upd_upd_same. auto.
Qed.
Lemma set_kid_comm c i j u w : i <> j -> set_kid (set_kid c i u) j w = set_kid (set_kid c j w) i u.
Proof.
  intros N. destruct c as [| | |l|l]; cbn [set_kid]; auto; [rewrite upd_comm by auto; auto|].
  destruct (nth_error l i) as [[k x]|] eqn:E; destruct (nth_error l j) as [[k2 y]|] eqn:E2; rewrite ?E, ?E2, ?nth_error_upd_ne, ?E, ?E2 by auto; auto.
  rewrite upd_comm by auto. auto.
Qed.
Lemma set_kid_id c i vs w : kids c = Some vs -> nth_error vs i = Some w -> set_kid c i w = c.
Proof.
  destruct c as [| | |l|l]; cbn [kids set_kid]; intros E N; try discriminate; injection E as <-; [rewrite upd_nth_id; auto|].
  rewrite nth_error_map in N. destruct (nth_error l i) as [[k x]|] eqn:EE; [|discriminate]. injection N as ->. rewrite upd_nth_id; auto.
Qed.
Lemma tget_tset : forall a t u x, tget t a = Some u -> tget (tset t a x) a = Some x.
Proof.
  induction a as [|i a IH]; intros t u x G; [reflexivity|]. cbn [tget tset] in *. destruct (tkid t i) as [k|] eqn:E; [|discriminate].
  rewrite (tkid_set t i i _ k E), Nat.eqb_refl. eauto.
Qed.
Lemma apart_sym a b : apart a b = apart b a.
Proof. revert b. induction a as [|i a IH]; intros [|j b]; cbn [apart]; auto. rewrite (Nat.eqb_sym j i). destruct (Nat.eqb i j); auto. Qed.
Lemma swap_id (a b : val) : swap_val a b = (b, a).
Proof. destruct a, b. reflexivity. Qed.
Lemma swap_ok h ts A fs a b ua ub : good h ts A [] -> vget ts a = Some ua -> vget ts b = Some ub -> apart a b = true ->
  exists h', step h fs (Swap a b) = Ok (h', fs, Some tt) /\ inv h' (vset (vset ts a ub) b ua).
Proof.
  intros (O & L & _) VA VB AP.
  assert (VB2: vget (vset ts a ub) b = Some ub).
  { pose proof (vset_tree ts a ua ub VA) as E. destruct (vget_inv _ _ _ VB) as (j & rb & EB & GB). destruct (vget_inv _ _ _ VA) as (i & ra & EA & GA). rewrite EB. unfold vget. rewrite <- EB, E.
    apply (tset_swap a b (JArr ts) ub JNull JNull ua ub AP); congruence. }
  assert (ET: JArr (vset (vset ts a ub) b ua) = tset (tset (JArr ts) a ub) b ua) by (rewrite (vset_tree _ _ _ _ VB2), (vset_tree _ _ _ _ VA); auto).
  destruct (vget_inv _ _ _ VA) as (i & ra & EA & GA). destruct (vget_inv _ _ _ VB) as (j & rb & EB & GB).
  destruct (deep ra _ _ _ _ i ua O GA) as (p & qa & ja & wa & Ba & Ca & _ & AD & RSa & RDa & OWa & HAa & DJa & QCa & Ra). cbn in AD. subst p.
  destruct (deep rb _ _ _ _ j ub O GB) as (p & qb & jb & wb & Bb & Cb & _ & AD & RSb & RDb & OWb & HAb & DJb & QCb & Rb). cbn in AD. subst p.
  rewrite <- EA in *. rewrite <- EB in *.
  assert (NA: a <> []) by (rewrite EA; discriminate). assert (NB: b <> []) by (rewrite EB; discriminate).
  change 0%nat with (addr rootv) in RSa, RSb.
  destruct (Ra h (V T_Null 0) JNull []) as (h1 & A1 & _ & O1 & HA1 & H1 & QL); [auto|constructor|intros ? []|].
  assert (F1: forall x, x <> qa -> cellat h1 x = cellat h x) by (intros x N; rewrite H1, cellat_upd by auto; destruct (Nat.eqb_spec x qa); [congruence|auto]).
  assert (F1q: cellat h1 qa = set_kid (cellat h qa) ja (V T_Null 0)) by (rewrite H1, cellat_upd, Nat.eqb_refl by auto; auto).
  destruct (stable a b _ _ h1 _ _ ua ub qa ja (qb, jb) _ O AP NA NB GA GB RSa RSb F1 F1q) as (RS1b & NE & RD1b). rewrite RDb in RD1b.
  destruct (tset_swap a b (JArr ts) JNull ub ua ua ub AP GA GB) as [G1b ES].
  pose proof G1b as G1b'. rewrite EB in G1b'.
  destruct (deep rb _ _ _ _ j ub O1 G1b') as (p & q2 & j2 & w2 & B2 & C2 & _ & AD & RS2 & RD2 & OW2 & HA2 & DJ2 & QC2 & R2). cbn in AD. subst p.
  rewrite <- EB in *. change 0%nat with (addr rootv) in RS2. rewrite RS1b in RS2. injection RS2 as <- <-. rewrite RD1b in RD2. injection RD2 as <-.
  assert (A1C: forall x, In x A1 <-> In x Ca) by (intros x; rewrite HA1; simpl; tauto).
  destruct (R2 h1 wa ua Ba) as (h2 & A2 & _ & O2 & HA2' & H2 & QL2); [auto| |intros x K Q; apply (DJa x K), A1C, HA2; auto|].
  { apply (frame h); auto. intros x K. apply F1. intros ->. apply (DJa qa); auto. }
  assert (F2: forall x, x <> qb -> cellat h2 x = cellat h1 x) by (intros x N; rewrite H2, cellat_upd by auto; destruct (Nat.eqb_spec x qb); [congruence|auto]).
  assert (F2q: cellat h2 qb = set_kid (cellat h1 qb) jb wa) by (rewrite H2, cellat_upd, Nat.eqb_refl by auto; auto).
  assert (RS1a: resolve h1 (addr rootv) a = Ok (qa, ja)).
  { rewrite EA in *. apply (same_place ra (JArr ts) h h1 rootv A i ua qa ja (V T_Null 0)); auto. }
  pose proof (tget_tset a (JArr ts) ua JNull GA) as G1a.
  rewrite apart_sym in AP. destruct (stable b a _ _ h2 _ _ ub JNull qb jb (qa, ja) _ O1 AP NB NA G1b G1a RS1b RS1a F2 F2q) as (RS2a & _ & _).
  destruct (tset_swap b a _ ua JNull JNull ub JNull AP G1b G1a) as [G2a _]. rewrite apart_sym in AP.
  pose proof G2a as G2a'. rewrite EA in G2a'.
  destruct (deep ra _ _ _ _ i JNull O2 (eq_trans (f_equal (fun z => tget (tset (tset (JArr ts) z JNull) b ua) (i :: ra)) EA) G2a')) as (p & q3 & j3 & w3 & B3 & C3 & _ & AD & RS3 & RD3 & OW3 & HA3 & DJ3 & QC3 & R3). cbn in AD. subst p.
  rewrite <- EA in *. change 0%nat with (addr rootv) in RS3. rewrite RS2a in RS3. injection RS3 as <- <-.
  assert (B30: B3 = []) by (inversion OW3; auto). subst B3.
  destruct (R3 h2 wb ub B2) as (h3 & A3 & _ & O3 & HA3' & H3 & QL3).
  { auto. }
  { apply (frame h1); auto. intros x K. apply F2. intros ->. apply (DJ2 qb); auto. }
  { intros x K Q. assert (K2: In x A2) by (apply HA3; auto). apply HA2' in K2. destruct K2 as [K2|K2]; [|apply (DJ2 x); auto]. apply (DJa x K2), A1C, HA2. auto. }
  assert (F3: forall x, x <> qa -> cellat h3 x = cellat h2 x) by (intros x N; rewrite H3, cellat_upd by auto; destruct (Nat.eqb_spec x qa); [congruence|auto]).
  assert (F3q: cellat h3 qa = set_kid (cellat h2 qa) ja wb) by (rewrite H3, cellat_upd, Nat.eqb_refl by auto; auto).
  rewrite ES in O3.
  (* the program *)
  change (step h fs (Swap a b)) with (let! ra := resolve h 0 a in let! rb := resolve h 0 b in let! va := read h ra in let! vb := read h rb in
    let (va, vb) := swap_val va vb in let! h := write h ra va in let! h := write h rb vb in Ok (h, fs, Some tt)).
  change 0%nat with (addr rootv). rewrite RSa, RSb. cbn [bind]. rewrite RDa. cbn [bind]. rewrite RDb. cbn [bind]. rewrite swap_id.
  unfold write at 1. rewrite RDa. cbn [bind fst snd]. set (g := upd h qa (set_kid (cellat h qa) ja wb)).
  assert (Fg: forall x, x <> qa -> cellat g x = cellat h x) by (intros x N; unfold g; rewrite cellat_upd by auto; destruct (Nat.eqb_spec x qa); [congruence|auto]).
  assert (Fgq: cellat g qa = set_kid (cellat h qa) ja wb) by (unfold g; rewrite cellat_upd, Nat.eqb_refl by auto; auto).
  destruct (stable a b _ _ g _ _ ua ub qa ja (qb, jb) _ O AP NA NB GA GB RSa RSb Fg Fgq) as (_ & _ & RDg).
  unfold write. rewrite RDg, RDb. cbn [bind fst snd]. set (g2 := upd g qb (set_kid (cellat g qb) jb wa)).
  assert (QLg: (qb < length g)%nat) by (unfold g; rewrite upd_length; rewrite H1, upd_length in QL2; auto).
  assert (Fg2: forall x, x <> qb -> cellat g2 x = cellat g x) by (intros x N; unfold g2; rewrite cellat_upd by auto; destruct (Nat.eqb_spec x qb); [congruence|auto]).
  assert (Fg2q: cellat g2 qb = set_kid (cellat g qb) jb wa) by (unfold g2; rewrite cellat_upd, Nat.eqb_refl by auto; auto).
  exists g2. split; [reflexivity|].
  assert (EQ: forall x, cellat g2 x = cellat h3 x).
  { intros x. destruct (Nat.eq_dec qa qb) as [Eab|Nab].
    - subst qb. assert (ja <> jb) by congruence. destruct (Nat.eq_dec x qa) as [->|Nx].
      + rewrite Fg2q, Fgq, F3q, F2q, F1q. rewrite (set_kid_comm (set_kid (cellat h qa) ja (V T_Null 0)) jb ja) by auto. rewrite set_kid_twice. auto.
      + rewrite Fg2, Fg, F3, F2, F1 by auto. auto.
    - destruct (Nat.eq_dec x qa) as [->|Nx]; [|destruct (Nat.eq_dec x qb) as [->|Ny]].
      + rewrite Fg2, Fgq, F3q, F2, F1q by auto. rewrite set_kid_twice. auto.
      + rewrite Fg2q, Fg, F3, F2q, F1 by auto. auto.
      + rewrite Fg2, Fg, F3, F2, F1 by auto. auto. }
  assert (AA: forall x, In x A3 <-> In x A).
  { intros x. rewrite HA3', HAa. pose proof (HA3 x) as K3. pose proof (HA2' x) as K2. pose proof (HA2 x) as K1. pose proof (A1C x) as K0. cbn [In] in K3. tauto. }
  exists A3. split; [|split; [|intros ? _ []]].
  - rewrite ET. apply (frame h3); auto.
  - intros x. rewrite EQ. split.
    + intros K. left. apply AA. destruct (Nat.eq_dec x qa) as [->|Nx]; [apply HAa; auto|]. destruct (Nat.eq_dec x qb) as [->|Ny]; [apply HAb; auto|].
      rewrite F3, F2, F1 in K by auto. apply L in K. destruct K as [K|[]]; auto.
    + intros [K|[]]. apply (proj1 (live_both h3) _ _ _ O3). auto.
Qed.
Lemma self_swap_ok h ts A fs a ua : good h ts A [] -> vget ts a = Some ua -> exists h', step h fs (Swap a a) = Ok (h', fs, Some tt) /\ inv h' ts.
Proof.
  intros G V. destruct (place _ _ _ _ _ _ G V) as ([q j] & w & RS & RD & _).
  change (step h fs (Swap a a)) with (let! ra := resolve h 0 a in let! rb := resolve h 0 a in let! va := read h ra in let! vb := read h rb in
    let (va, vb) := swap_val va vb in let! h := write h ra va in let! h := write h rb vb in Ok (h, fs, Some tt)).
  rewrite RS. cbn [bind]. rewrite RD. cbn [bind]. rewrite swap_id.
  assert (W: write h (q, j) w = Ok h).
  { unfold write. rewrite RD. cbn [bind fst snd]. unfold read in RD. cbn [fst snd] in RD. destruct (kids (cellat h q)) as [vs|] eqn:K; [|discriminate].
    destruct (nth_error vs j) as [w0|] eqn:N; [|discriminate]. injection RD as ->. rewrite (set_kid_id _ _ _ _ K N). f_equal. apply upd_nth_id.
    unfold cellat in *. rewrite nth_nth_error_d in *. destruct (nth_error h q); [auto|discriminate]. }
  rewrite W. cbn [bind]. rewrite W. cbn [bind]. exists h. split; [auto|]. exists A. auto.
Qed.
Lemma ownsl_snoc h vs v ts A : ownsl h (vs ++ [v]) ts A -> exists ts0 t B C, ts = ts0 ++ [t] /\ ownsl h vs ts0 B /\ owns h v t C /\ A = B ++ C /\ (forall p, In p B -> ~ In p C).
Proof.
  revert ts A. induction vs as [|w vs IH]; intros ts A O; cbn [app] in O; inversion O as [|w' vs' t' ts' A' B' OW OL DJ]; subst.
  - inversion OL; subst. exists [], t', [], A'. rewrite app_nil_r. split; [auto|]. split; [constructor|]. split; [auto|]. split; [auto|intros ? []].
  - destruct (IH _ _ OL) as (ts0 & t & B & C & -> & O1 & O2 & -> & D). exists (t' :: ts0), t, (A' ++ B), C. split; [auto|].
    assert (D1: forall p, In p A' -> ~ In p B) by (intros p K Q; apply (DJ p K), in_app_iff; auto).
    split; [constructor; auto|]. split; [auto|]. split; [rewrite app_assoc; auto|].
    intros p K Q. apply in_app_iff in K. destruct K as [K|K]; [apply (DJ p K), in_app_iff; auto|apply (D p); auto].
Qed.
Lemma leave_ok h ts A fs : good h ts A [] -> ts <> [] -> exists h', step h fs Leave = Ok (h', fs, Some tt) /\ inv h' (removelast ts).
Proof.
  intros G NE. pose proof G as (O & L & _). destruct (root_inv _ _ _ O) as (vs & A0 & CC & OL & NI & ->).
  assert (L0: (0 < length h)%nat) by (apply cell_range; rewrite CC; discriminate).
  unfold step. rewrite CC. destruct vs as [|v vs _] using rev_ind; [inversion OL; subst; congruence|].
  rewrite rev_app_distr. cbn [rev app]. rewrite removelast_last.
  destruct (ownsl_snoc _ _ _ _ _ OL) as (ts0 & t & B & C & -> & O1 & O2 & -> & D). rewrite removelast_last.
  set (h1 := upd h 0 (CArr vs)).
  assert (F1: forall x, x <> 0%nat -> cellat h1 x = cellat h x) by (intros x N; unfold h1; rewrite cellat_upd by auto; destruct (Nat.eqb_spec x 0); [congruence|auto]).
  assert (B0: forall x, In x B -> x <> 0%nat) by (intros x K ->; apply NI, in_app_iff; auto).
  assert (C0: forall x, In x C -> x <> 0%nat) by (intros x K ->; apply NI, in_app_iff; auto).
  assert (OV: owns h1 v t C) by (apply (frame h); auto; intros; apply F1; auto).
  destruct (destroy_ok (depth h) h1 v t C OV) as (h2 & -> & F2).
  { pose proof (height_depth _ _ _ _ O2). auto. }
  cbn [bind]. exists h2. split; [auto|]. exists (0%nat :: B).
  apply (good_freed h1 h2 _ _ [] C); [|intros ? _ []|exact F2]. rewrite app_nil_r. split; [|split].
  - apply (o_arr _ 0%nat vs); [unfold h1; rewrite cellat_upd, Nat.eqb_refl by auto; auto| |intros K; apply (B0 0%nat K); auto].
    apply (framel h); auto.
  - intros x. destruct (Nat.eq_dec x 0) as [->|N].
    + split; [intros _; left; left; auto|]. intros _. unfold h1. rewrite cellat_upd, Nat.eqb_refl by auto. discriminate.
    + rewrite F1 by auto. rewrite L. cbn [In]. rewrite in_app_iff. tauto.
  - intros x [<-|K] Q; [apply (C0 0%nat Q); auto|apply (D x); auto].
Qed.
Lemma resolve_grow h h1 ts A X path u r : good h ts A X -> vget ts path = Some u -> (forall x, (x < length h)%nat -> cellat h1 x = cellat h x) ->
  resolve h 0 path = Ok r -> resolve h1 0 path = Ok r.
Proof.
  intros G V F RS. destruct (vget_inv _ _ _ V) as (i & rest & -> & TG). pose proof G as (O & _).
  change 0%nat with (addr rootv) in *. destruct (resolve_frame rest _ h h1 rootv A i u O TG) as [E _]; [|congruence].
  intros x K. apply F. apply (good_range _ _ _ _ x G). auto.
Qed.
Lemma vgets_length ts ps : forall us, vgets ts ps = Some us -> length us = length ps.
Proof.
  induction ps as [|p ps IH]; intros us H; cbn [vgets] in H; [injection H as <-; auto|].
  destruct (vget ts p); [|discriminate]. destruct (vgets ts ps) as [l|]; [|discriminate]. injection H as <-. cbn. rewrite (IH l); auto.
Qed.
Lemma combine_fst {X Y} (a : list X) : forall b : list Y, length a = length b -> map fst (combine a b) = a.
Proof. induction a as [|x a IH]; intros [|y b] H; cbn in *; try discriminate; auto. rewrite IH; auto. Qed.
Lemma combine_snd {X Y} (a : list X) : forall b : list Y, length a = length b -> map snd (combine a b) = b.
Proof. induction a as [|x a IH]; intros [|y b] H; cbn in *; try discriminate; auto. rewrite IH; auto. Qed.

(** ** C79 *)
(** One statement, whatever allocations fail: it ends without UB; either it did what it means to the
    variables, or it threw bad_alloc and no variable has changed; exactly the cells of the variables are allocated. *)
Theorem C79_step h ts o ts' : inv h ts -> meaning ts o = Some ts' -> forall fs,
  exists h' fs' r, step h fs o = Ok (h', fs', r) /\ match r with Some _ => inv h' ts' | None => inv h' ts end /\ (fs = [] -> r <> None).
Proof.
  intros (A & G) M fs. destruct o as [l|src|srcs|srcs|dst src|dst l|a b|]; cbn [meaning] in M.
  - injection M as <-. cbn [step]. destruct (make_ok h fs l) as (h1 & fs1 & r & -> & MD & FS). cbn [bind]. destruct r as [v|].
    + destruct MD as (B & OV & GR). pose proof (good_grow _ _ _ _ _ _ G GR) as G1.
      destruct (good_push _ _ _ _ v _ B G1 OV) as (h2 & A2 & -> & G2 & _); [intros ? _ []|]. cbn [bind]. exists h2, fs1, (Some tt). split; [auto|]. split; [exists A2; auto|discriminate].
    + exists h1, fs1, None. split; [auto|]. split; [exists A; apply (good_grow _ _ _ _ [] [] G MD)|]. intros E. destruct (FS E). congruence.
  - destruct (vget ts src) as [t|] eqn:V; [|discriminate]. injection M as <-. cbn [step].
    destruct (place _ _ _ _ _ _ G V) as (r0 & w & -> & RD & (BW & OW)). cbn [bind]. rewrite RD. cbn [bind].
    destruct (copy_ok (depth h) h fs w t BW OW (height_depth _ _ _ _ OW)) as (h1 & fs1 & r & -> & MD & FS). cbn [bind]. destruct r as [v|].
    + destruct MD as (B & OV & GR). pose proof (good_grow _ _ _ _ _ _ G GR) as G1.
      destruct (good_push _ _ _ _ v _ B G1 OV) as (h2 & A2 & -> & G2 & _); [intros ? _ []|]. cbn [bind]. exists h2, fs1, (Some tt). split; [auto|]. split; [exists A2; auto|discriminate].
    + exists h1, fs1, None. split; [auto|]. split; [exists A; apply (good_grow _ _ _ _ [] [] G MD)|]. intros E. destruct (FS E). congruence.
  - destruct (vgets ts srcs) as [us|] eqn:V; [|discriminate]. injection M as <-. cbn [step].
    destruct (reads_ok _ _ _ _ G _ _ V) as (vs & -> & S). cbn [bind].
    apply (via_local_ok h ts A fs vs us _ (JArr us) G S). intros h1 fs1 es E OE.
    apply (new_array_ok (depth h1) _ _ h1 fs1 es us E (copy_ok _) (destroy_ok _) OE (height_depthl _ _ _ _ OE)).
  - destruct (vgets ts (map snd srcs)) as [us|] eqn:V; [|discriminate]. injection M as <-. cbn [step].
    destruct (reads_ok _ _ _ _ G _ _ V) as (vs & -> & S). cbn [bind]. pose proof (vgets_length _ _ _ V) as LU. rewrite map_length in LU.
    apply (via_local_ok h ts A fs vs us _ (JObj (combine (map fst srcs) us)) G S). intros h1 fs1 es E OE.
    pose proof (ownsl_length _ _ _ _ OE) as LE.
    assert (L1: length (map fst srcs) = length es) by (rewrite map_length; congruence).
    assert (L2: length (map fst srcs) = length us) by (rewrite map_length; congruence).
    apply (new_object_ok (depth h1) _ _ h1 fs1 _ _ E (copy_ok _) (destroy_ok _)).
    + rewrite !combine_snd by auto. auto.
    + rewrite !combine_fst by auto. auto.
    + rewrite combine_snd by auto. exact (height_depthl _ _ _ _ OE).
  - destruct (vget ts dst) as [d0|] eqn:VD; [|discriminate]. destruct (vget ts src) as [t|] eqn:VS; [|discriminate]. injection M as <-. cbn [step].
    destruct (place _ _ _ _ _ _ G VD) as (rd & wd & RSD & RDD & SD). destruct (place _ _ _ _ _ _ G VS) as (rs & ws & RSS & RDS & SS).
    rewrite RSD, RSS. cbn [bind]. rewrite RDS. cbn [bind].
    destruct (assign_ref_ok h ts A [] fs dst d0 rd ws t G VD RSD SS) as (h' & fs' & r & E & _ & R & FS). exists h', fs', r. split; [auto|].
    split; [destruct r; [destruct R as [A' R]; exists A'; auto|exists A; auto]|]. intros K. apply FS. auto.
  - destruct (vget ts dst) as [d0|] eqn:VD; [|discriminate]. injection M as <-. cbn [step].
    destruct (place _ _ _ _ _ _ G VD) as (rd & wd & RSD & RDD & SD). rewrite RSD. cbn [bind].
    destruct (make_ok h fs l) as (h1 & fs1 & r & -> & MD & FS). cbn [bind]. destruct r as [v|].
    2:{ exists h1, fs1, None. split; [auto|]. split; [exists A; apply (good_grow _ _ _ _ [] [] G MD)|]. intros E. destruct (FS E). congruence. }
    destruct MD as (B & OV & GR). pose proof (good_grow _ _ _ _ _ _ G GR) as G1. rewrite app_nil_r in G1. pose proof GR as (GL & GF & GN & GB).
    pose proof (resolve_grow _ h1 _ _ _ _ _ _ G VD GF RSD) as RS1.
    destruct (assign_ref_ok h1 ts A B fs1 dst d0 rd v (lit_tree l) G1 VD RS1 (ex_intro _ B OV)) as (h2 & fs2 & r & -> & X2 & R & FS2). cbn [bind].
    assert (O2: owns h2 v (lit_tree l) B) by (apply (frame h1); auto).
    destruct (destroy_ok (depth h2) h2 v _ B O2 (height_depth _ _ _ _ O2)) as (h3 & -> & F3). cbn [bind].
    exists h3, fs2, r. split; [auto|]. split.
    + destruct r; [destruct R as [A' R]; exists A'|exists A]; (apply (good_freed h2 h3 _ _ [] B); [rewrite app_nil_r; auto|intros ? _ []|auto]).
    + intros E. destruct (FS E) as [E1 _]. apply FS2. auto.
  - destruct (vget ts a) as [ua|] eqn:VA; [|discriminate]. destruct (vget ts b) as [ub|] eqn:VB; [|discriminate]. destruct (apart a b) eqn:AP.
    + injection M as <-. destruct (swap_ok h ts A fs a b ua ub G VA VB AP) as (h' & E & I). exists h', fs, (Some tt). split; [exact E|]. split; [exact I|discriminate].
    + destruct (list_eq_dec Nat.eq_dec a b) as [<-|]; [|discriminate]. injection M as <-.
      destruct (self_swap_ok h ts A fs a ua G VA) as (h' & E & I). exists h', fs, (Some tt). split; [exact E|]. split; [exact I|discriminate].
  - destruct ts as [|t0 ts0] eqn:ET; [discriminate|]. injection M as <-. rewrite <- ET in *.
    destruct (leave_ok h ts A fs G) as (h' & E & I); [rewrite ET; discriminate|]. exists h', fs, (Some tt). split; [exact E|]. split; [rewrite ET in I; exact I|discriminate].
Qed.

(** a program whose statements all mean something, whichever of those with a failing allocation throw *)
Fixpoint legal (ts : list tree) (l : list (op * list bool)) : Prop :=
  match l with
  | [] => True
  | (o, fs) :: l => exists ts1, meaning ts o = Some ts1 /\ legal ts1 l /\ (fs <> [] -> legal ts l)
  end.
(** the variables it can end with *)
Inductive ends : list tree -> list (op * list bool) -> list tree -> Prop :=
| e_nil ts : ends ts [] ts
| e_done ts o fs l ts1 ts' : meaning ts o = Some ts1 -> ends ts1 l ts' -> ends ts ((o, fs) :: l) ts'
| e_thrown ts o fs l ts' : fs <> [] -> ends ts l ts' -> ends ts ((o, fs) :: l) ts'.

Lemma run_ok : forall l h ts, inv h ts -> legal ts l -> exists h' ts', run h l = Ok h' /\ ends ts l ts' /\ inv h' ts'.
Proof.
  induction l as [|[o fs] l IH]; intros h ts I LG; cbn [legal run] in *.
  - exists h, ts. split; [auto|]. split; [constructor|auto].
  - destruct LG as (ts1 & M & L1 & L2). destruct (C79_step h ts o ts1 I M fs) as (h1 & fs1 & r & -> & J & NF). cbn [bind]. destruct r as [u|].
    + destruct (IH h1 ts1 J L1) as (h' & ts' & E & EN & I'). exists h', ts'. split; [auto|]. split; [econstructor; eauto|auto].
    + assert (NE: fs <> []) by (intros ->; apply NF; auto). destruct (IH h1 ts J (L2 NE)) as (h' & ts' & E & EN & I').
      exists h', ts'. split; [auto|]. split; [apply e_thrown; auto|auto].
Qed.
Lemma start_inv : inv start [].
Proof.
  exists [0%nat]. split; [|split; [|intros ? _ []]].
  - apply (o_arr _ 0%nat []); [reflexivity|constructor|intros []].
  - intros p. cbn [In]. destruct p as [|[|p]]; cbn; split; intros; try tauto; try discriminate; try lia.
Qed.
(** Any program: no UB, no endless recursion; variable k ends as the tree with number k, each tree in memory
    of its own; and what is allocated is exactly what the variables own. *)
Theorem C79_run l : legal [] l -> exists h vs ts A, run start l = Ok h /\ ends [] l ts /\
  cellat h 0 = CArr vs /\ ownsl h vs ts A /\ forall p, p <> 0%nat -> (cellat h p <> Dead <-> In p A).
Proof.
  intros LG. destruct (run_ok l start [] start_inv LG) as (h & ts & E & EN & (A & O & L & _)).
  destruct (root_inv _ _ _ O) as (vs & A0 & CC & OL & NI & ->). exists h, vs, ts, A0. split; [auto|]. split; [auto|]. split; [auto|]. split; [auto|].
  intros p NP. rewrite L. cbn [In]. split; [intros [[K|K]|[]]; [congruence|auto]|auto].
Qed.
(** When all variables have gone out of scope nothing is left allocated. *)
Theorem C79_no_leak l : legal [] l -> (forall ts, ends [] l ts -> ts = []) -> exists h, run start l = Ok h /\ forall p, p <> 0%nat -> cellat h p = Dead.
Proof.
  intros LG E. destruct (C79_run l LG) as (h & vs & ts & A & R & EN & CC & OL & LV). exists h. split; [auto|]. intros p NP.
  rewrite (E ts EN) in OL. inversion OL; subst. apply (notlive _ _ (LV p NP)). auto.
Qed.

(** Non-vacuity.  Value n(3.0), s("ab"); Array {n, s, s} a; Object {k: a, l: n} o;  n = a (an allocation inside
    fails);  a = a.getArray()[1] (a part of itself);  o.k[0].swap(s);  a = a;  o.l = Value(true);  then all leave *)
Definition example : list (op * list bool) :=
  [(Declare (LNum 3), []); (Declare (LStr [97; 98]), []); (DeclareArray [[0%nat]; [1%nat]; [1%nat]], []);
   (DeclareObject [([107], [2%nat]); ([108], [0%nat])], []);
   (Assign [0%nat] [2%nat], [false; false; false; false; true]); (Assign [2%nat] [2%nat; 1%nat], []);
   (Swap [3%nat; 0%nat; 0%nat] [1%nat], []); (Assign [2%nat] [2%nat], []); (AssignLit [3%nat; 1%nat] (LBool true), [])].
Ltac legality := repeat (cbn [legal]; eexists; split; [reflexivity|]; split; [|let K := fresh in intros K; first [exfalso; apply K; reflexivity | idtac]]).
Example C79_example_legal : legal [] (example ++ [(Leave, []); (Leave, []); (Leave, []); (Leave, [])]).
Proof. unfold example. cbn [app]. legality; cbn [legal]; auto. Qed.
Example C79_example_run : exists h, run start (firstn 4 example) = Ok h /\ run start example <> UB /\
  cellat h 0 = CArr [V T_Number 3; V T_String 1; V T_Array 4; V T_Object 10] /\ cellat h 4 = CArr [V T_Number 3; V T_String 5; V T_String 6] /\
  cellat h 11 = CArr [V T_Number 3; V T_String 12; V T_String 13].
Proof. eexists. split; [vm_compute; reflexivity|]. split; [vm_compute; discriminate|]. vm_compute. auto. Qed.
(** the statement with the failing allocation throws, and memory is as before *)
Example C79_example_thrown : exists h h' fs', run start (firstn 4 example) = Ok h /\
  step h [false; false; false; false; true] (Assign [0%nat] [2%nat]) = Ok (h', fs', None) /\ forall p, (p < 20)%nat -> cellat h' p = cellat h p.
Proof.
  eexists _, _, _. split; [vm_compute; reflexivity|]. split; [vm_compute; reflexivity|]. intros p Hp. do 20 (destruct p; [vm_compute; reflexivity|]). lia.
Qed.
(** ** Finding: swapping a json Value with an element of its own array leaks a cycle
    Value a(arr) with one string element; a.swap(element 0 of a): the variable now is the string and the
    array contains itself; after all variables have gone the array is still allocated and nothing points to it. *)
Theorem C79_swap_part_finding : exists h,
  run start [(Declare (LStr [97]), []); (DeclareArray [[0%nat]], []); (Swap [1%nat] [1%nat; 0%nat], []); (Leave, []); (Leave, [])] = Ok h /\
  cellat h 0 = CArr [] /\ cellat h 3 = CArr [V T_Array 3].
Proof. eexists. split; [vm_compute; reflexivity|]. split; reflexivity. Qed.

Print Assumptions C79_step.
Print Assumptions C79_run.
Print Assumptions C79_no_leak.
Print Assumptions C79_swap_part_finding.
