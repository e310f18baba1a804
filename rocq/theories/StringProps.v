(** Properties C74, C75 (the class String of string.hpp). *)
Require Import Verif.Common Verif.EndianProps Verif.Base64Proof Verif.Utf8Model Verif.Utf8Spec Verif.Utf8Props Verif.ArrayProps Verif.StringModel.

(** ** specification *)
Definition val (s : store) (x : nat) : list Z := nth x s [].
(** the chars [off, off + n) as far as they exist; the part before and the part from [off] *)
Definition slice (t : list Z) (off n : Z) : list Z := firstn (Z.to_nat n) (skipn (Z.to_nat off) t).
Definition before (t : list Z) (off : Z) := firstn (Z.to_nat off) t.
Definition from (t : list Z) (off : Z) := skipn (Z.to_nat off) t.

(** UTF-16 as this library reads it: a trail surrogate without a lead stands for itself (finding of C19) *)
Definition char16 (v : Z) : Prop := scalar v \/ 0xdc00 <= v < 0xe000.
Definition units16 (v : Z) : list Z := if (0xdc00 <=? v) && (v <? 0xe000) then [v] else utf16 v.

(** the text an argument stands for; [false]: an exception is thrown after this much of it *)
Inductive text (s : store) : src -> list Z -> bool -> Prop :=
| t_str y : text s (FromStr y) (val s y) true
| t_sub y off n : off <= zlen (val s y) -> text s (FromSub y off n) (slice (val s y) off n) true
| t_sub_bad y off n : zlen (val s y) < off -> text s (FromSub y off n) [] false
| t_chars t : text s (FromChars t) t true
| t_fill n c : text s (FromFill n c) (repeat c (Z.to_nat n)) true
| t_8 p : scalars p -> text s (From8 (utf8_text p)) p true
| t_8_bad p r : scalars p -> r <> [] -> (forall v q, scalar v -> r <> utf8 v ++ q) -> text s (From8 (utf8_text p ++ r)) p false
| t_16 p : Forall char16 p -> text s (From16 (concat (map units16 p))) p true
| t_16_bad p r : Forall char16 p -> r <> [] -> (forall v q, char16 v -> r <> units16 v ++ q) ->
    text s (From16 (concat (map units16 p) ++ r)) p false.

(** the object [x] gets the contents [v]; all others keep theirs *)
Definition becomes (s : store) (x : nat) (v : list Z) (s' : store) : Prop :=
  val s' x = v /\ length s' = length s /\ forall z, z <> x -> val s' z = val s z.
Definition returns (o : out) (P : store -> Prop) : Prop := exists s', o = Done s' /\ P s'.
Definition throws (o : out) (P : store -> Prop) : Prop := exists s', o = Threw s' /\ P s'.
Definition result (ok : bool) (o : out) (P : store -> Prop) := if ok then returns o P else throws o P.
Definition unchanged (s s' : store) : Prop := s' = s.
(** [v] if the condition holds, std::out_of_range without a change otherwise *)
Definition checked (c : bool) (s : store) (x : nat) (v : list Z) (o : out) : Prop :=
  if c then returns o (becomes s x v) else throws o (unchanged s).
Definition created (s : store) (v : list Z) (s' : store) : Prop := s' = s ++ [v].

Definition effect (s : store) (o : op) (r : out) : Prop :=
  match o with
  | Append x f => exists t ok, text s f t ok /\ result ok r (becomes s x (val s x ++ t))
  | Assign x f => exists t ok, text s f t ok /\ result ok r (becomes s x t)
  | Construct f => exists t ok, text s f t ok /\ if ok then returns r (created s t) else throws r (unchanged s)
  | InsertStr x off y => checked (off <=? zlen (val s x)) s x (before (val s x) off ++ val s y ++ from (val s x) off) r
  | InsertSub x off y yoff n =>
      checked ((off <=? zlen (val s x)) && (yoff <=? zlen (val s y))) s x
        (before (val s x) off ++ slice (val s y) yoff n ++ from (val s x) off) r
  | InsertFill x off n c => checked (off <=? zlen (val s x)) s x (before (val s x) off ++ repeat c (Z.to_nat n) ++ from (val s x) off) r
  | Insert8 x off t =>
      (exists p, scalars p /\ t = utf8_text p /\ returns r (becomes s x (before (val s x) off ++ p ++ from (val s x) off))) \/
      ((~ exists p, scalars p /\ t = utf8_text p) /\ throws r (unchanged s))
  | Erase x off n => checked (off <=? zlen (val s x)) s x (before (val s x) off ++ from (val s x) (off + n)) r
  | ReplaceStr x off n y => checked (off <=? zlen (val s x)) s x (before (val s x) off ++ val s y ++ from (val s x) (off + n)) r
  | ReplaceSub x off n y yoff m =>
      checked ((off <=? zlen (val s x)) && (yoff <=? zlen (val s y))) s x
        (before (val s x) off ++ slice (val s y) yoff m ++ from (val s x) (off + n)) r
  | ReplaceFill x off n m c => checked (off <=? zlen (val s x)) s x (before (val s x) off ++ repeat c (Z.to_nat m) ++ from (val s x) (off + n)) r
  | Resize x n c => returns r (becomes s x (firstn (Z.to_nat n) (val s x ++ repeat c (Z.to_nat n))))
  | PopBack x => checked (0 <? zlen (val s x)) s x (removelast (val s x)) r
  | Swap x y => returns r (fun s' => val s' x = val s y /\ val s' y = val s x /\ length s' = length s /\
                                     forall z, z <> x -> z <> y -> val s' z = val s z)
  | Substr y off n => if off <=? zlen (val s y) then returns r (created s (slice (val s y) off n)) else throws r (unchanged s)
  | Plus x y => returns r (created s (val s x ++ val s y))
  end.

(** the operands exist, positions and counts are size_t values, strings of bytes and of 16-bit units;
    an iterator argument lies in the string; nothing is assigned to itself *)
Definition src_ok (s : store) (f : src) : Prop :=
  match f with
  | FromStr y => (y < length s)%nat
  | FromSub y off n => (y < length s)%nat /\ 0 <= off < 2 ^ 64 /\ 0 <= n < 2 ^ 64
  | FromChars _ => True
  | FromFill n _ => 0 <= n < 2 ^ 64
  | From8 t => bytes t
  | From16 t => code_units16 t
  end.
Definition not_from (x : nat) (f : src) : Prop := match f with FromStr y | FromSub y _ _ => y <> x | _ => True end.
Definition sz (n : Z) : Prop := 0 <= n < 2 ^ 64.
Definition op_ok (s : store) (o : op) : Prop :=
  match o with
  | Append x f => (x < length s)%nat /\ src_ok s f
  | Assign x f => (x < length s)%nat /\ src_ok s f /\ not_from x f
  | Construct f => src_ok s f
  | InsertStr x off y => (x < length s)%nat /\ (y < length s)%nat /\ sz off
  | InsertSub x off y yoff n => (x < length s)%nat /\ (y < length s)%nat /\ sz off /\ sz yoff /\ sz n
  | InsertFill x off n _ => (x < length s)%nat /\ sz off /\ sz n
  | Insert8 x off t => (x < length s)%nat /\ 0 <= off <= zlen (val s x) /\ bytes t
  | Erase x off n => (x < length s)%nat /\ sz off /\ sz n
  | ReplaceStr x off n y => (x < length s)%nat /\ (y < length s)%nat /\ sz off /\ sz n
  | ReplaceSub x off n y yoff m => (x < length s)%nat /\ (y < length s)%nat /\ sz off /\ sz n /\ sz yoff /\ sz m
  | ReplaceFill x off n m _ => (x < length s)%nat /\ sz off /\ sz n /\ sz m
  | Resize x n _ => (x < length s)%nat /\ sz n
  | PopBack x => (x < length s)%nat /\ zlen (val s x) < 2 ^ 64
  | Swap x y => (x < length s)%nat /\ (y < length s)%nat
  | Substr y off n => (y < length s)%nat /\ sz off /\ sz n
  | Plus x y => (x < length s)%nat /\ (y < length s)%nat
  end.

(** ** proofs *)
Lemma get_val s x : (x < length s)%nat -> get s x = Some (val s x).
Proof. intros. unfold get, val. apply nth_error_nth'. auto. Qed.
Lemma upd_becomes s x v : (x < length s)%nat -> becomes s x v (upd s x v).
Proof.
  intros H. unfold becomes, val. repeat split.
  - apply nth_error_nth. apply nth_error_upd_eq. auto.
  - apply upd_length.
  - intros z Hz. rewrite !nth_default_eq || idtac.
    destruct (Nat.lt_ge_cases z (length s)).
    + erewrite nth_error_nth; [|rewrite nth_error_upd_ne by auto; apply nth_error_nth'; auto]. auto.
    + rewrite !nth_overflow; auto. rewrite upd_length. auto.
Qed.
Lemma zlen_nn {A} (l : list A) : 0 <= zlen l. Proof. unfold zlen. lia. Qed.
Lemma firstn_min {A} (l : list A) n off : 0 <= off <= zlen l -> 0 <= n ->
  firstn (Z.to_nat (Z.min n (zlen l - off))) (skipn (Z.to_nat off) l) = firstn (Z.to_nat n) (skipn (Z.to_nat off) l).
Proof.
  unfold zlen. intros. destruct (Z_le_dec n (Z.of_nat (length l) - off)).
  - rewrite Z.min_l by lia. auto.
  - rewrite Z.min_r by lia. rewrite !firstn_all2; auto; rewrite skipn_length; lia.
Qed.
Lemma sub_ok t off n : 0 <= off -> 0 <= n ->
  bs_sub t off n = if off <=? zlen t then Some (slice t off n) else None.
Proof.
  intros. unfold bs_sub, slice. destruct (zlen t <? off) eqn:E, (off <=? zlen t) eqn:E'; try lia; auto.
  cbv zeta. rewrite firstn_min by lia. auto.
Qed.
Lemma replace_ok s off n t : 0 <= off -> 0 <= n ->
  bs_replace s off n t = if off <=? zlen s then Some (before s off ++ t ++ from s (off + n)) else None.
Proof.
  intros. unfold bs_replace, before, from. destruct (zlen s <? off) eqn:E, (off <=? zlen s) eqn:E'; try lia; auto.
  cbv zeta. do 3 f_equal. unfold zlen in *. destruct (Z_le_dec n (Z.of_nat (length s) - off)).
  - rewrite Z.min_l by lia. auto.
  - rewrite Z.min_r by lia. rewrite !skipn_all2; auto; lia.
Qed.
Lemma set_checked s x (v : option (list Z)) c w : (x < length s)%nat -> v = (if c : bool then Some w else None) ->
  checked c s x w (set s x v).
Proof.
  intros H ->. unfold checked, set. destruct c.
  - eexists. split; [eauto|]. apply upd_becomes. auto.
  - eexists. split; [eauto|]. reflexivity.
Qed.

Lemma push8_spec f acc s : (length s <= f)%nat -> bytes s ->
  exists p r, scalars p /\ s = utf8_text p ++ r /\ push8 f acc s = Ok (acc ++ p, match r with [] => true | _ => false end)
    /\ (r <> [] -> forall v q, scalar v -> r <> utf8 v ++ q).
Proof.
  revert acc s. induction f; intros acc s L B.
  - destruct s; [|simpl in L; lia]. exists [], []. cbn. rewrite app_nil_r. repeat split; auto; try constructor; congruence.
  - destruct s as [|c s]. { exists [], []. cbn. rewrite app_nil_r. repeat split; auto; try constructor; congruence. }
    cbn [push8]. destruct (get8_spec (c :: s) B ltac:(congruence)) as [v rest Hv E|sk rest Hl E X]; cbn [bind].
    + destruct (IHf (acc ++ [v]) rest) as (p & r & P1 & P2 & P3 & P4).
      { assert (length (c :: s) = length (utf8 v) + length rest)%nat by (rewrite E, app_length; auto).
        pose proof (utf8_len v). cbn [length] in *. lia. }
      { rewrite E in B. apply bytes_app in B. tauto. }
      exists (v :: p), r. repeat split; auto.
      * constructor; auto.
      * rewrite E, P2. unfold utf8_text. cbn [map concat]. rewrite app_assoc. auto.
      * rewrite P3, <- app_assoc. auto.
    + exists [], (c :: s). cbn [utf8_text map concat]. rewrite app_nil_r. repeat split; auto. constructor.
Qed.

Lemma units16_len v : (1 <= length (units16 v) <= 2)%nat.
Proof. unfold units16. destruct (_ && _); [simpl; lia|apply utf16_len]. Qed.
Lemma get16_char s : code_units16 s -> s <> [] ->
  (exists v rest, char16 v /\ s = units16 v ++ rest /\ GetCharFromUtf16 s = Ok (Some v, rest)) \/
  (exists rest, GetCharFromUtf16 s = Ok (None, rest) /\ forall v q, char16 v -> s <> units16 v ++ q).
Proof.
  intros B N. destruct s as [|c0 s]; [congruence|]. inversion B as [|? ? B0 B']; subst. unfold GetCharFromUtf16.
  rewrite isLead_iff by auto. destruct ((55296 <=? c0) && (c0 <? 56320)) eqn:E; cbn [negb].
  - destruct s as [|c1 s].
    { right. eexists. split; eauto. intros v r Hv. unfold units16, utf16, char16, scalar in *. destruct ((56320 <=? v) && (v <? 57344)) eqn:?; [|destruct (v <? 65536) eqn:?]; cbn [app]; intros Ev; conses; lia. }
    inversion B' as [|? ? B1 B'']; subst. rewrite isTrail_iff by auto. destruct ((56320 <=? c1) && (c1 <? 57344)) eqn:E1.
    + left. rewrite !Z.shiftl_mul_pow2 by lia. eexists _, _. split; [|split; [|reflexivity]].
      * left. right. lia.
      * unfold units16, utf16. match goal with |- context [if ?b then _ else _] => destruct b eqn:Eb end; [lia|]. clear Eb. match goal with |- context [if ?b then _ else _] => destruct b eqn:Eb end; [lia|]. cbn [app]. f_equal; [lia|]. f_equal; lia.
    + right. eexists. split; eauto. intros v r Hv. unfold units16, utf16, char16, scalar in *. destruct ((56320 <=? v) && (v <? 57344)) eqn:?; [|destruct (v <? 65536) eqn:?]; cbn [app]; intros Ev; conses; lia.
  - left. exists c0, s. split; [|split; auto].
    + unfold char16, scalar. lia.
    + unfold units16, utf16. destruct ((56320 <=? c0) && (c0 <? 57344)) eqn:?; auto. destruct (c0 <? 65536) eqn:?; auto. lia.
Qed.
Lemma push16_spec f acc s : (length s <= f)%nat -> code_units16 s ->
  exists p r, Forall char16 p /\ s = concat (map units16 p) ++ r /\ push16 f acc s = Ok (acc ++ p, match r with [] => true | _ => false end)
    /\ (r <> [] -> forall v q, char16 v -> r <> units16 v ++ q).
Proof.
  revert acc s. induction f; intros acc s L B.
  - destruct s; [|simpl in L; lia]. exists [], []. cbn. rewrite app_nil_r. repeat split; auto; try constructor; congruence.
  - destruct s as [|c s]. { exists [], []. cbn. rewrite app_nil_r. repeat split; auto; try constructor; congruence. }
    cbn [push16]. destruct (get16_char (c :: s) B ltac:(congruence)) as [(v & rest & Hv & E & G)|(rest & G & X)]; rewrite G; cbn [bind].
    + destruct (IHf (acc ++ [v]) rest) as (p & r & P1 & P2 & P3 & P4).
      { assert (length (c :: s) = length (units16 v) + length rest)%nat by (rewrite E, app_length; auto).
        pose proof (units16_len v). cbn [length] in *. lia. }
      { rewrite E in B. apply Forall_app in B. tauto. }
      exists (v :: p), r. repeat split; auto.
      * rewrite E, P2. cbn [map concat]. rewrite app_assoc. auto.
      * rewrite P3, <- app_assoc. auto.
    + exists [], (c :: s). cbn [map concat]. rewrite app_nil_r. repeat split; auto.
Qed.

Lemma append_spec s x f : (x < length s)%nat -> src_ok s f ->
  exists t ok, text s f t ok /\ append s x f = (if ok then Done else Threw) (upd s x (val s x ++ t)).
Proof.
  intros Hx Hf. unfold append. rewrite get_val by auto. destruct f; cbn [src_ok] in Hf.
  - rewrite get_val by auto. eexists _, true. split; [constructor|auto].
  - destruct Hf as (Hy & Ho & Hn). rewrite get_val by auto. unfold bs_append_sub. rewrite sub_ok by lia.
    destruct (off <=? _) eqn:E.
    + eexists _, true. split; [constructor; lia|auto].
    + exists [], false. split; [constructor; lia|]. f_equal. rewrite app_nil_r.
      symmetry. apply upd_id. unfold val. apply nth_error_nth'. auto.
  - eexists _, true. split; [constructor|auto].
  - eexists _, true. split; [constructor|auto].
  - destruct (push8_spec (length t) (val s x) t ltac:(auto) Hf) as (p & r & P1 & P2 & -> & P4). destruct r.
    + exists p, true. rewrite app_nil_r in P2. rewrite P2 at 1. split; [constructor; auto|auto].
    + exists p, false. rewrite P2 at 1. split; [constructor; auto; [congruence|apply P4; congruence]|auto].
  - destruct (push16_spec (length t) (val s x) t ltac:(auto) Hf) as (p & r & P1 & P2 & -> & P4). destruct r.
    + exists p, true. rewrite app_nil_r in P2. rewrite P2 at 1. split; [constructor; auto|auto].
    + exists p, false. rewrite P2 at 1. split; [constructor; auto; [congruence|apply P4; congruence]|auto].
Qed.
Lemma text_frame s s' f t ok : (forall y, match f with FromStr z | FromSub z _ _ => y = z | _ => False end -> val s' y = val s y) ->
  text s' f t ok -> text s f t ok.
Proof.
  intros E T. inversion T; subst; try (constructor; auto; fail).
  - rewrite E by auto. constructor.
  - rewrite E in * by auto. constructor. auto.
  - rewrite E in * by auto. constructor. auto.
Qed.
Lemma val_app_l s v y : (y < length s)%nat -> val (s ++ [v]) y = val s y.
Proof. intros. unfold val. apply app_nth1. auto. Qed.
Lemma val_app_last s v : val (s ++ [v]) (length s) = v.
Proof. unfold val. rewrite app_nth2 by lia. rewrite Nat.sub_diag. auto. Qed.
Lemma upd_last (s : store) v w : upd (s ++ [v]) (length s) w = s ++ [w].
Proof. induction s; simpl; [auto|]. f_equal. auto. Qed.
Lemma src_app s v f : src_ok s f -> src_ok (s ++ [v]) f.
Proof. destruct f; simpl; rewrite ?app_length; simpl; intros; try tauto; lia. Qed.

(** ** C74: what the members of String do, for every argument and every state of all strings *)
Theorem C74_members : forall s o, op_ok s o -> effect s o (step s o).
Proof.
  intros s o H. destruct o; cbn [op_ok effect step] in *; unfold sz in *.
  - destruct H as [Hx Hf]. destruct (append_spec s x f Hx Hf) as (t & ok & T & ->). exists t, ok. split; auto.
    destruct ok; eexists; (split; [reflexivity|apply upd_becomes; auto]).
  - destruct H as (Hx & Hf & Hn). unfold assign, clear.
    assert (Hx': (x < length (upd s x []))%nat) by (rewrite upd_length; auto).
    destruct (append_spec (upd s x []) x f Hx') as (t & ok & T & ->).
    { destruct f; simpl in *; rewrite ?upd_length; auto. }
    exists t, ok. split.
    + eapply text_frame; [|eauto]. intros y Hy. destruct (upd_becomes s x [] Hx) as (_ & _ & F). apply F.
      destruct f; simpl in *; subst; auto; tauto.
    + destruct (upd_becomes s x [] Hx) as (V & _ & F). rewrite V. cbn [app].
      destruct (upd_becomes (upd s x []) x t Hx') as (V2 & L2 & F2).
      assert (B: becomes s x t (upd (upd s x []) x t)).
      { split; [auto|]. split; [rewrite !upd_length; auto|]. intros z Hz. rewrite F2, F by auto. auto. }
      destruct ok; eexists; (split; [reflexivity|auto]).
  - assert (Hl: (length s < length (s ++ [[]]))%nat) by (rewrite app_length; simpl; lia).
    destruct (append_spec (s ++ [[]]) (length s) f Hl (src_app _ _ _ H)) as (t & ok & T & ->).
    rewrite val_app_last. cbn [app]. exists t, ok. split.
    + eapply text_frame; [|eauto]. intros y Hy. apply val_app_l. destruct f; simpl in *; subst; tauto.
    + destruct ok; eexists; (split; [reflexivity|]); [|reflexivity]. unfold created. apply upd_last.
  - destruct H as (Hx & Hy & Ho). rewrite !get_val by auto. apply set_checked; auto. unfold bs_insert. rewrite replace_ok by lia.
    rewrite Z.add_0_r. auto.
  - destruct H as (Hx & Hy & Ho & Hyo & Hn). rewrite !get_val by auto. rewrite sub_ok by lia.
    destruct (yoff <=? _); cbn [andb]; rewrite ?andb_true_r, ?andb_false_r.
    + apply set_checked; auto. unfold bs_insert. rewrite replace_ok by lia. rewrite Z.add_0_r. auto.
    + eexists. split; reflexivity.
  - destruct H as (Hx & Ho & Hn). rewrite !get_val by auto. apply set_checked; auto. unfold bs_insert. rewrite replace_ok by lia.
    rewrite Z.add_0_r. auto.
  - destruct H as (Hx & Ho & Hb). rewrite !get_val by auto.
    destruct (push8_spec (length t) [] t ltac:(auto) Hb) as (p & r & P1 & P2 & -> & P4). destruct r.
    + left. exists p. rewrite app_nil_r in P2. split; [auto|]. split; [auto|]. destruct (off <=? _) eqn:E; [|lia].
      unfold bs_insert. rewrite replace_ok by lia. rewrite E, Z.add_0_r. cbn [app]. eexists. split; [reflexivity|]. apply upd_becomes. auto.
    + right. split; [|eexists; split; reflexivity]. intros (p' & Q1 & Q2).
      assert (G: forall p p' r, scalars p -> scalars p' -> r <> [] -> utf8_text p ++ r = utf8_text p' ->
         exists v q, scalar v /\ r = utf8 v ++ q).
      { clear. induction p as [|v p IH]; intros p' r S1 S2 N E.
        - destruct p' as [|v' p']; [cbn in E; congruence|]. inversion S2; subst. exists v', (utf8_text p'). split; auto.
        - destruct p' as [|v' p'].
          { exfalso. cbn [utf8_text map concat] in E. pose proof (utf8_len v). unfold utf8_text in E. cbn [map concat] in E. destruct (utf8 v); [simpl in *; lia|discriminate]. }
          inversion S1; inversion S2; subst. unfold utf8_text in E. cbn [map concat] in E. rewrite <- app_assoc in E.
          apply utf8_prefix_free in E as [<- E]; auto. eapply IH; eauto. }
      destruct (G p p' (z :: r)) as (v & q & V & E); auto; [congruence|congruence|]. eapply P4; eauto. congruence.
  - destruct H as (Hx & Ho & Hn). rewrite !get_val by auto. apply set_checked; auto. unfold bs_erase. rewrite replace_ok by lia. auto.
  - destruct H as (Hx & Hy & Ho & Hn). rewrite !get_val by auto. apply set_checked; auto. rewrite replace_ok by lia. auto.
  - destruct H as (Hx & Hy & Ho & Hn & Hyo & Hm). rewrite !get_val by auto. rewrite sub_ok by lia.
    destruct (yoff <=? _); cbn [andb]; rewrite ?andb_true_r, ?andb_false_r.
    + apply set_checked; auto. rewrite replace_ok by lia. auto.
    + eexists. split; reflexivity.
  - destruct H as (Hx & Ho & Hn & Hm). rewrite !get_val by auto. apply set_checked; auto. rewrite replace_ok by lia. auto.
  - destruct H as (Hx & Hn). rewrite !get_val by auto. eexists. split; [reflexivity|].
    replace (firstn (Z.to_nat n) (val s x ++ repeat c (Z.to_nat n))) with (bs_resize (val s x) n c); [apply upd_becomes; auto|].
    unfold bs_resize, zlen. destruct (n <=? _) eqn:E.
    + rewrite firstn_app. replace (Z.to_nat n - length (val s x))%nat with O by lia. cbn [firstn]. rewrite app_nil_r. auto.
    + rewrite firstn_app. rewrite firstn_all2 by lia. f_equal. symmetry.
      assert (G: forall k m, (k <= m)%nat -> firstn k (repeat c m) = repeat c k).
      { clear. induction k; intros [|m] L; simpl; auto; try lia. f_equal. apply IHk. lia. }
      rewrite G by lia. f_equal. lia.
  - destruct H as (Hx & Hl). rewrite !get_val by auto. apply set_checked; auto. unfold bs_erase.
    rewrite replace_ok by (try apply Z.mod_pos_bound; lia). pose proof (zlen_nn (val s x)).
    destruct (0 <? zlen (val s x)) eqn:E.
    + rewrite Z.mod_small by lia. destruct (_ <=? _) eqn:E'; [|lia]. f_equal. unfold before, from, zlen in *. cbn [app].
      rewrite (skipn_all2 (val s x)) by lia. rewrite app_nil_r.
      rewrite removelast_firstn_len. f_equal. lia.
    + replace (zlen (val s x)) with 0 by lia. reflexivity.
  - destruct H as (Hx & Hy). rewrite !get_val by auto. eexists. split; [reflexivity|].
    destruct (upd_becomes s x (val s y) Hx) as (V & L & F).
    assert (Hy': (y < length (upd s x (val s y)))%nat) by (rewrite upd_length; auto).
    destruct (upd_becomes (upd s x (val s y)) y (val s x) Hy') as (V2 & L2 & F2).
    split; [|split; [auto|split; [rewrite !upd_length; auto|]]].
    + destruct (Nat.eq_dec x y) as [->|N]; [rewrite V2; auto|]. rewrite F2 by auto. auto.
    + intros z Hz Hz'. rewrite F2, F by auto. auto.
  - destruct H as (Hy & Ho & Hn). rewrite !get_val by auto. rewrite sub_ok by lia. destruct (off <=? _); eexists; split; reflexivity.
  - destruct H as (Hx & Hy). rewrite !get_val by auto. unfold append.
    rewrite get_val by (rewrite app_length; simpl; lia). rewrite get_val by (rewrite app_length; simpl; lia).
    rewrite val_app_last, val_app_l by auto. eexists. split; [reflexivity|]. unfold created. apply upd_last.
Qed.

(** the text an argument stands for is unique *)
Lemma utf8_split_unique p p' r r' : scalars p -> scalars p' -> utf8_text p ++ r = utf8_text p' ++ r' ->
  (r = [] \/ r <> [] /\ forall v q, scalar v -> r <> utf8 v ++ q) -> (r' = [] \/ r' <> [] /\ forall v q, scalar v -> r' <> utf8 v ++ q) -> p = p' /\ r = r'.
Proof.
  revert p'. induction p as [|v p IH]; intros p' S1 S2 E H H'.
  - destruct p' as [|v' p']; [auto|]. inversion S2; subst. exfalso. unfold utf8_text in E. cbn [map concat app] in E. rewrite <- app_assoc in E.
    destruct H as [->|[_ H]]; [|eapply H; eauto]. pose proof (utf8_len v'). destruct (utf8 v'); [simpl in *; lia|discriminate].
  - destruct p' as [|v' p'].
    + inversion S1; subst. exfalso. unfold utf8_text in E. cbn [map concat app] in E. rewrite <- app_assoc in E.
      destruct H' as [->|[_ H']]; [|eapply H'; eauto]. pose proof (utf8_len v). destruct (utf8 v); [simpl in *; lia|discriminate].
    + inversion S1; inversion S2; subst. unfold utf8_text in E. cbn [map concat] in E. rewrite <- !app_assoc in E.
      apply utf8_prefix_free in E as [<- E]; auto. destruct (IH p') as [-> ->]; auto.
Qed.
Lemma units16_prefix_free v v' r r' : char16 v -> char16 v' -> units16 v ++ r = units16 v' ++ r' -> v = v' /\ r = r'.
Proof.
  unfold char16, scalar, units16, utf16. intros Hv Hv'.
  destruct ((56320 <=? v) && (v <? 57344)) eqn:E1, ((56320 <=? v') && (v' <? 57344)) eqn:E2; destruct (v <? 65536) eqn:?, (v' <? 65536) eqn:?;
    cbn [app]; intros E; conses; try (exfalso; lia); (split; [lia|auto]).
Qed.
Lemma utf16_split_unique p p' r r' : Forall char16 p -> Forall char16 p' -> concat (map units16 p) ++ r = concat (map units16 p') ++ r' ->
  (r = [] \/ r <> [] /\ forall v q, char16 v -> r <> units16 v ++ q) -> (r' = [] \/ r' <> [] /\ forall v q, char16 v -> r' <> units16 v ++ q) -> p = p' /\ r = r'.
Proof.
  revert p'. induction p as [|v p IH]; intros p' S1 S2 E H H'.
  - destruct p' as [|v' p']; [auto|]. inversion S2; subst. exfalso. cbn [map concat app] in E. rewrite <- app_assoc in E.
    destruct H as [->|[_ H]]; [|eapply H; eauto]. pose proof (units16_len v'). destruct (units16 v'); [simpl in *; lia|discriminate].
  - destruct p' as [|v' p'].
    + inversion S1; subst. exfalso. cbn [map concat app] in E. rewrite <- app_assoc in E.
      destruct H' as [->|[_ H']]; [|eapply H'; eauto]. pose proof (units16_len v). destruct (units16 v); [simpl in *; lia|discriminate].
    + inversion S1; inversion S2; subst. cbn [map concat] in E. rewrite <- !app_assoc in E.
      apply units16_prefix_free in E as [<- E]; auto. destruct (IH p') as [-> ->]; auto.
Qed.
Lemma text8_inv s u t ok : text s (From8 u) t ok -> exists r, scalars t /\ u = utf8_text t ++ r /\ ok = (match r with [] => true | _ => false end) /\
  (r = [] \/ r <> [] /\ forall v q, scalar v -> r <> utf8 v ++ q).
Proof.
  intros T. inversion T; subst.
  - exists []. rewrite app_nil_r. auto.
  - exists r. repeat split; auto. destruct r; congruence.
Qed.
Lemma text16_inv s u t ok : text s (From16 u) t ok -> exists r, Forall char16 t /\ u = concat (map units16 t) ++ r /\ ok = (match r with [] => true | _ => false end) /\
  (r = [] \/ r <> [] /\ forall v q, char16 v -> r <> units16 v ++ q).
Proof.
  intros T. inversion T; subst.
  - exists []. rewrite app_nil_r. auto.
  - exists r. repeat split; auto. destruct r; congruence.
Qed.
Theorem C74_text_unique : forall s f t ok t' ok', text s f t ok -> text s f t' ok' -> t = t' /\ ok = ok'.
Proof.
  intros s f t ok t' ok' T T'. destruct f; try (inversion T; subst; inversion T'; subst; auto; lia).
  - apply text8_inv in T as (r & A1 & A2 & -> & A4). apply text8_inv in T' as (r' & B1 & B2 & -> & B4).
    rewrite A2 in B2. apply utf8_split_unique in B2 as [<- <-]; auto.
  - apply text16_inv in T as (r & A1 & A2 & -> & A4). apply text16_inv in T' as (r' & B1 & B2 & -> & B4).
    rewrite A2 in B2. apply utf16_split_unique in B2 as [<- <-]; auto.
Qed.
Example C74_nonvacuous :
  let s := [[65; 66; 67]; [0x3042; 0x1f600]] in
  step s (Assign 0 (From8 [0xe3; 0x81; 0x82])) = Done [[0x3042]; [0x3042; 0x1f600]]
  /\ step s (Append 0 (From8 [97; 0xe3; 0x81])) = Threw [[65; 66; 67; 97]; [0x3042; 0x1f600]]
  /\ step s (Append 0 (FromStr 0)) = Done [[65; 66; 67; 65; 66; 67]; [0x3042; 0x1f600]]
  /\ step s (ReplaceSub 0 1 1 1 1 npos) = Done [[65; 0x1f600; 67]; [0x3042; 0x1f600]]
  /\ step s (Erase 0 4 1) = Threw s /\ step s (PopBack 1) = Done [[65; 66; 67]; [0x3042]]
  /\ step [[]] (PopBack 0) = Threw [[]]
  /\ op_ok s (Assign 0 (From8 [0xe3; 0x81; 0x82])) /\ op_ok s (ReplaceSub 0 1 1 1 1 npos).
Proof. repeat split; try reflexivity; cbn; try lia; unfold npos; try lia. repeat constructor; unfold is_byte; lia. Qed.

(** ** Finding: assigning a String to itself (s = s, s.assign(s)) empties it, and s.assign(s, off, n)
    empties it and throws std::out_of_range when off > 0: assign() clears before it copies.  Every
    standard container supports self-assignment. *)
Theorem C74_self_assign_finding : forall s x, (x < length s)%nat ->
  step s (Assign x (FromStr x)) = Done (upd s x []) /\
  (forall off n, 0 < off -> step s (Assign x (FromSub x off n)) = Threw (upd s x [])) /\
  step [[65; 66]] (Assign 0 (FromStr 0)) = Done [[]].
Proof.
  intros s x H. destruct (upd_becomes s x [] H) as (V & L & _). split; [|split; [|reflexivity]].
  - cbn [step]. unfold assign, clear, append. rewrite get_val by (rewrite upd_length; auto). rewrite V. cbn [app]. rewrite upd_upd. auto.
  - intros off n Ho. cbn [step]. unfold assign, clear, append. rewrite get_val by (rewrite upd_length; auto). rewrite V.
    unfold bs_append_sub, bs_sub. destruct (zlen [] <? off) eqn:E; auto. unfold zlen in E. simpl in E. lia.
Qed.
Lemma append_self_spec grow cap a : forall k b pos, 0 <= pos -> pos + Z.of_nat k <= zlen a -> zlen a + zlen b <= cap ->
  append_self k grow cap false (a ++ b) pos = if cap <? zlen a + zlen b + Z.of_nat k - 1 then UB else Ok (a ++ b ++ slice a pos (Z.of_nat k)).
Proof.
  induction k as [|k IH]; intros b pos Hp Hk Hc.
  - cbn [append_self]. destruct (_ <? _) eqn:E; [lia|]. unfold slice. simpl. rewrite app_nil_r. auto.
  - cbn [append_self]. unfold zlen in Hk. rewrite nth_error_app1 by lia.
    destruct (nth_error a (Z.to_nat pos)) as [c|] eqn:Ec; [|apply nth_error_None in Ec; lia].
    assert (Hs: slice a pos (Z.of_nat (S k)) = c :: slice a (pos + 1) (Z.of_nat k)).
    { unfold slice. rewrite !Nat2Z.id. replace (Z.to_nat (pos + 1)) with (S (Z.to_nat pos)) by lia.
      clear - Ec. revert Ec. generalize (Z.to_nat pos). induction a as [|y a IHa]; intros [|m] Ec; cbn [nth_error skipn] in *; try discriminate.
      - injection Ec as ->. auto.
      - apply IHa. auto. }
    rewrite Hs. replace (zlen (a ++ b)) with (zlen a + zlen b) by (unfold zlen; rewrite app_length; lia).
    destruct (_ =? cap) eqn:E.
    + destruct k as [|k].
      * cbn [append_self]. destruct (_ <? _) eqn:E2; [lia|]. unfold slice. simpl. rewrite <- app_assoc. auto.
      * cbn [append_self]. destruct (_ <? _) eqn:E2; [auto|lia].
    + rewrite <- app_assoc. rewrite IH; [|lia|unfold zlen; lia|unfold zlen in *; rewrite app_length; simpl; lia].
      replace (zlen a + zlen (b ++ [c]) + Z.of_nat k - 1) with (zlen a + zlen b + Z.of_nat (S k) - 1) by (unfold zlen; rewrite app_length; simpl; lia).
      destruct (_ <? _); auto. rewrite <- app_assoc. auto.
Qed.
(** ** Finding: append(const Char *p, count) with p pointing into the string itself reads freed memory as
    soon as the string has to grow before the last character is read (std::basic_string allows this
    call); without growth it appends the characters. *)
Theorem C74_append_self_finding : forall grow cap a off n, 0 <= off -> 0 <= n -> off + n <= zlen a -> zlen a <= cap ->
  append_ptr_self grow cap a off n = if cap <? zlen a + n - 1 then UB else Ok (a ++ slice a off n).
Proof.
  intros grow cap a off n Ho Hn H Hc. unfold append_ptr_self.
  pose proof (append_self_spec grow cap a (Z.to_nat n) [] off) as G. rewrite app_nil_r in G. rewrite Z2Nat.id in G by lia.
  rewrite G by (unfold zlen in *; simpl; lia). change (zlen (@nil Z)) with 0. rewrite Z.add_0_r. auto.
Qed.
Example C74_append_self_example : append_ptr_self (fun c => 2 * c) 3 [65; 66; 67] 0 2 = UB /\ append_ptr_self (fun c => 2 * c) 4 [65; 66; 67] 0 2 = Ok [65; 66; 67; 65; 66].
Proof. split; reflexivity. Qed.

(** ** C75: comparison *)
(** dictionary order *)
Definition lex_lt (a b : list Z) : Prop :=
  (exists p x y r q, a = p ++ x :: r /\ b = p ++ y :: q /\ x < y) \/ (exists y q, b = a ++ y :: q).
Lemma lex_cons x a b : lex_lt (x :: a) (x :: b) <-> lex_lt a b.
Proof.
  unfold lex_lt. split.
  - intros [(p & u & v & r & q & E1 & E2 & L)|(y & q & E)].
    + destruct p as [|w p]; cbn [app] in *; [injection E1 as -> ->; injection E2 as -> ->; lia|]. injection E1 as -> ->. injection E2 as ->. left. eauto 8.
    + right. cbn [app] in E. injection E as ->. eauto.
  - intros [(p & u & v & r & q & -> & -> & L)|(y & q & ->)]; [left; exists (x :: p), u, v, r, q; auto|right; exists y, q; auto].
Qed.
Lemma lex_neq x y a b : x <> y -> lex_lt (x :: a) (y :: b) <-> x < y.
Proof.
  intros N. unfold lex_lt. split.
  - intros [(p & u & v & r & q & E1 & E2 & L)|(u & q & E)].
    + destruct p; cbn [app] in *; congruence.
    + cbn [app] in E. congruence.
  - intros L. left. exists [], x, y, a, b. auto.
Qed.
Lemma lex_nil_l b : lex_lt [] b <-> b <> [].
Proof.
  split; [intros [(p & u & v & r & q & E & _)|(y & q & ->)]; [destruct p; discriminate|discriminate]|].
  intros H. destruct b as [|y b]; [congruence|]. right. exists y, b. auto.
Qed.
Lemma lex_nil_r a : ~ lex_lt a [].
Proof. intros [(p & u & v & r & q & _ & E & _)|(y & q & E)]; [destruct p|destruct a]; discriminate. Qed.
(** it is a strict total order *)
Lemma lex_irrefl a : ~ lex_lt a a.
Proof. induction a; [apply lex_nil_r|]. rewrite lex_cons. auto. Qed.
Lemma lex_trichotomy a b : lex_lt a b \/ a = b \/ lex_lt b a.
Proof.
  revert b. induction a as [|x a IH]; intros [|y b]; auto.
  - left. apply lex_nil_l. congruence.
  - right. right. apply lex_nil_l. congruence.
  - destruct (Z.eq_dec x y) as [->|N].
    + rewrite !lex_cons. destruct (IH b) as [?|[->|?]]; auto.
    + rewrite !lex_neq by auto. lia.
Qed.
Lemma lex_trans a b c : lex_lt a b -> lex_lt b c -> lex_lt a c.
Proof.
  revert b c. induction a as [|x a IH]; intros [|y b] [|z c] H1 H2; try (apply lex_nil_l; congruence); try (exfalso; eapply lex_nil_r; eauto; fail).
  destruct (Z.eq_dec x y) as [->|N], (Z.eq_dec y z) as [->|N']; rewrite ?lex_cons in *.
  - eapply IH; eauto.
  - rewrite lex_neq in * by auto. auto.
  - rewrite lex_neq in * by auto. auto.
  - rewrite lex_neq in H1, H2 by auto. apply lex_neq; lia.
Qed.

Lemma compare_aux a b : forall n, n = Nat.min (length a) (length b) ->
  (traits_compare n a b < 0 /\ lex_lt a b) \/ (traits_compare n a b > 0 /\ lex_lt b a) \/
  (traits_compare n a b = 0 /\ ((a = b) \/ (length a < length b)%nat /\ lex_lt a b \/ (length b < length a)%nat /\ lex_lt b a)).
Proof.
  revert b. induction a as [|x a IH]; intros [|y b] n ->; cbn [length Nat.min traits_compare].
  - right. right. auto.
  - right. right. split; auto. right. left. split; [lia|]. apply lex_nil_l. congruence.
  - right. right. split; auto. right. right. split; [lia|]. apply lex_nil_l. congruence.
  - destruct (x <? y) eqn:E; [left; split; [lia|apply lex_neq; lia]|]. destruct (y <? x) eqn:E'; [right; left; split; [lia|apply lex_neq; lia]|].
    assert (y = x) as -> by lia. specialize (IH b _ eq_refl). rewrite !lex_cons.
    destruct IH as [?|[?|[? [->|[?|?]]]]]; auto; right; right; split; auto; right; [left|right]; split; try tauto; lia.
Qed.
Lemma bs_compare_spec a b : (bs_compare a b < 0 <-> lex_lt a b) /\ (bs_compare a b = 0 <-> a = b) /\ (0 < bs_compare a b <-> lex_lt b a).
Proof.
  assert (X: forall P Q : Prop, lex_lt a b -> (lex_lt b a -> P) /\ (a = b -> Q)).
  { intros P Q H. split; [intros; exfalso; eapply lex_irrefl, lex_trans; eauto|intros ->; exfalso; eapply lex_irrefl; eauto]. }
  assert (X': forall P Q : Prop, lex_lt b a -> (lex_lt a b -> P) /\ (a = b -> Q)).
  { intros P Q H. split; [intros; exfalso; eapply lex_irrefl, lex_trans; eauto|intros ->; exfalso; eapply lex_irrefl; eauto]. }
  unfold bs_compare. cbv zeta. replace (Z.to_nat (Z.min (zlen a) (zlen b))) with (Nat.min (length a) (length b)) by (unfold zlen; lia).
  destruct (compare_aux a b _ eq_refl) as [[H1 H2]|[[H1 H2]|[H1 H2]]].
  - destruct (negb _) eqn:E; [|lia]. destruct (X False False H2). repeat split; intros; auto; try lia; tauto.
  - destruct (negb _) eqn:E; [|lia]. destruct (X' False False H2). repeat split; intros; auto; try lia; tauto.
  - rewrite H1. cbn [Z.eqb negb]. unfold zlen. destruct H2 as [->|[[L H2]|[L H2]]].
    + repeat split; intros; auto; try lia; try (exfalso; eapply lex_irrefl; eauto).
    + destruct (X False False H2). repeat split; intros; auto; try lia; tauto.
    + destruct (X' False False H2). repeat split; intros; auto; try lia; tauto.
Qed.

(** the String on the right-hand side of a comparison *)
Inductive denotes : cmp_src -> list Z -> Prop :=
| d_str b : denotes (CStr b) b
| d_8 p : scalars p -> denotes (C8 (utf8_text p)) p
| d_16 p : Forall char16 p -> denotes (C16 (concat (map units16 p))) p.
Definition holds (r : rel) (a b : list Z) : Prop :=
  match r with
  | REq => a = b | RNe => a <> b | RLt => lex_lt a b | RGt => lex_lt b a
  | RLe => lex_lt a b \/ a = b | RGe => lex_lt b a \/ a = b
  end.
Definition cmp_ok (f : cmp_src) : Prop := match f with CStr _ => True | C8 t => bytes t | C16 t => code_units16 t end.

Lemma append16_chars p : Forall char16 p -> forall f acc, (length (concat (map units16 p)) <= f)%nat -> code_units16 (concat (map units16 p)) ->
  append16 f acc (concat (map units16 p)) = Ok (acc ++ p).
Proof.
  induction 1 as [|v p Hv Hp IH]; intros f acc L B.
  - destruct f; cbn; rewrite app_nil_r; auto.
  - cbn [map concat] in *. pose proof (units16_len v). rewrite app_length in L. destruct f; [lia|].
    destruct (units16 v ++ concat (map units16 p)) eqn:E; [destruct (units16 v); simpl in *; [lia|discriminate]|].
    cbn [append16]. rewrite <- E in *. destruct (get16_char _ B ltac:(rewrite E; congruence)) as [(v' & rest & Hv' & E' & G)|(rest & G & X)].
    + rewrite G. cbn [bind]. apply units16_prefix_free in E' as [<- <-]; auto. apply Forall_app in B as [_ B].
      rewrite IH by (auto; lia). rewrite <- app_assoc. auto.
    + exfalso. eapply X; eauto.
Qed.
Lemma append16_decode f acc s l : code_units16 s -> append16 f acc s = Ok l -> exists p, l = acc ++ p /\ Forall char16 p /\ s = concat (map units16 p).
Proof.
  revert acc s. induction f; intros acc s B E.
  - destruct s; [|discriminate]. injection E as <-. exists []. rewrite app_nil_r. auto.
  - destruct s as [|c s]; [injection E as <-; exists []; rewrite app_nil_r; auto|].
    cbn [append16] in E. destruct (get16_char (c :: s) B ltac:(congruence)) as [(v & rest & Hv & Hs & G)|(rest & G & _)]; rewrite G in E; cbn [bind] in E; [|discriminate].
    assert (Br: code_units16 rest) by (rewrite Hs in B; apply Forall_app in B; tauto).
    destruct (IHf _ _ Br E) as (p & -> & Hp & ->). exists (v :: p). rewrite <- app_assoc. repeat split; auto.
Qed.
Lemma append8_res f acc s : (length s <= f)%nat -> bytes s -> (exists l, append8 f acc s = Ok l) \/ append8 f acc s = Exn.
Proof.
  revert acc s. induction f; intros acc s L B.
  - destruct s; [|simpl in L; lia]. left. exists acc. auto.
  - destruct s as [|c s]; [left; exists acc; auto|]. cbn [append8].
    destruct (get8_spec (c :: s) B ltac:(congruence)) as [v rest Hv E|sk rest Hl E X]; cbn [bind]; auto. apply IHf.
    + assert (length (c :: s) = length (utf8 v) + length rest)%nat by (rewrite E, app_length; auto). pose proof (utf8_len v). cbn [length] in *. lia.
    + rewrite E in B. apply bytes_app in B. tauto.
Qed.
Lemma append16_res f acc s : (length s <= f)%nat -> code_units16 s -> (exists l, append16 f acc s = Ok l) \/ append16 f acc s = Exn.
Proof.
  revert acc s. induction f; intros acc s L B.
  - destruct s; [|simpl in L; lia]. left. exists acc. auto.
  - destruct s as [|c s]; [left; exists acc; auto|]. cbn [append16].
    destruct (get16_char (c :: s) B ltac:(congruence)) as [(v & rest & Hv & E & G)|(rest & G & X)]; rewrite G; cbn [bind]; auto. apply IHf.
    + assert (length (c :: s) = length (units16 v) + length rest)%nat by (rewrite E, app_length; auto). pose proof (units16_len v). cbn [length] in *. lia.
    + rewrite E in B. apply Forall_app in B. tauto.
Qed.
Lemma compare_denotes a f : cmp_ok f ->
  (exists b, denotes f b /\ compare a f = Ok (bs_compare a b)) \/ ((forall b, ~ denotes f b) /\ compare a f = Exn).
Proof.
  intros H. destruct f as [b|t|t]; cbn [cmp_ok compare] in *.
  - left. exists b. split; [constructor|auto].
  - destruct (append8_res (length t) [] t ltac:(auto) H) as [[l E]|E]; unfold String_append8; rewrite E; cbn [bind].
    + left. exists l. destruct (C18_string_decode t l H E) as (S & -> & _). split; [constructor; auto|auto].
    + right. split; [|auto]. intros b D. inversion D; subst. destruct (C18_string b [] ltac:(auto)) as (_ & X & _). specialize (X []). unfold String_append8 in X. cbn [app] in X. congruence.
  - destruct (append16_res (length t) [] t ltac:(auto) H) as [[l E]|E]; unfold String_append16; rewrite E; cbn [bind].
    + left. exists l. destruct (append16_decode _ _ _ _ H E) as (p & -> & P & ->). split; [constructor; auto|auto].
    + right. split; [|auto]. intros b D. inversion D; subst. rewrite append16_chars in E by auto. discriminate.
Qed.

(** every comparison with a String, whatever the other side is made of and on whichever side it stands,
    says what the dictionary order of the characters says; it throws exactly if the other side is malformed *)
Theorem C75_relations : forall r a f, cmp_ok f ->
  (forall b, denotes f b -> (exists t, rel_l r a f = Ok t /\ (t = true <-> holds r a b)) /\ (exists t, rel_r r f a = Ok t /\ (t = true <-> holds r b a))) /\
  ((forall b, ~ denotes f b) -> rel_l r a f = Exn /\ rel_r r f a = Exn).
Proof.
  intros r a f H. destruct (compare_denotes a f H) as [(b0 & D0 & E)|(N & E)].
  - split; [|intros N; exfalso; eapply N; eauto]. intros b D.
    assert (b = b0) as ->.
    { inversion D; subst; inversion D0; subst; auto.
      - destruct (utf8_split_unique b b0 [] []); auto. rewrite !app_nil_r. auto.
      - destruct (utf16_split_unique b b0 [] []); auto. rewrite !app_nil_r. auto. }
    destruct (bs_compare_spec a b0) as (S1 & S2 & S3).
    assert (S2': bs_compare a b0 = 0 <-> b0 = a) by (rewrite S2; split; auto).
    split; unfold rel_r, rel_l; rewrite E; cbn [bind]; (eexists; split; [reflexivity|]); destruct r; cbn [holds]; unfold not;
      first [rewrite <- S2|rewrite <- S2'|idtac]; rewrite <- ?S1, <- ?S3; lia.
  - split; [intros b D; exfalso; eapply N; eauto|]. intros _. unfold rel_r, rel_l. rewrite E. auto.
Qed.
(** this order is total *)
Theorem C75_total_order : forall a b c,
  ~ lex_lt a a /\ (lex_lt a b -> lex_lt b c -> lex_lt a c) /\ (lex_lt a b \/ a = b \/ lex_lt b a).
Proof. intros a b c. split; [apply lex_irrefl|]. split; [apply lex_trans|apply lex_trichotomy]. Qed.

Lemma lex_app p a b : lex_lt (p ++ a) (p ++ b) <-> lex_lt a b.
Proof. induction p; cbn [app]; [tauto|]. rewrite lex_cons. auto. Qed.
Lemma lex_eq x y a b : x = y -> lex_lt a b -> lex_lt (x :: a) (y :: b).
Proof. intros -> H. apply lex_cons. auto. Qed.
Lemma lex_lt_head x y a b : x < y -> lex_lt (x :: a) (y :: b).
Proof. intros H. apply lex_neq; lia. Qed.
Lemma utf8_lt v v' r q : scalar v -> scalar v' -> v < v' -> lex_lt (utf8 v ++ r) (utf8 v' ++ q).
Proof.
  unfold scalar. intros S S' L. utf8_cases v; utf8_cases v'; try lia; cbn [app];
  repeat match goal with
  | |- lex_lt (?x :: _) (?y :: _) => first [apply lex_lt_head; lia | destruct (Z.eq_dec x y); [apply lex_eq; [assumption|]|apply lex_lt_head; lia]]
  end; exfalso; lia.
Qed.
(** comparing Strings and comparing their UTF-8 encodings byte by byte is the same *)
Theorem C75_utf8_order : forall a b, scalars a -> scalars b -> (lex_lt a b <-> lex_lt (utf8_text a) (utf8_text b)).
Proof.
  induction a as [|v a IH]; intros [|v' b] Sa Sb.
  - tauto.
  - rewrite lex_nil_l. change (utf8_text []) with (@nil Z). rewrite lex_nil_l. split; [intros _|congruence].
    unfold utf8_text. cbn [map concat]. pose proof (utf8_len v'). destruct (utf8 v'); [simpl in *; lia|discriminate].
  - split; intros H; exfalso; eapply lex_nil_r; eauto.
  - inversion Sa; inversion Sb; subst. unfold utf8_text. cbn [map concat]. fold (utf8_text a) (utf8_text b).
    destruct (Z.eq_dec v v') as [->|N].
    + rewrite lex_cons, lex_app. auto.
    + rewrite lex_neq by auto. split; [apply utf8_lt; auto|]. intros H. destruct (Z_lt_le_dec v v'); auto. exfalso.
      eapply lex_irrefl, lex_trans; [exact H|]. apply utf8_lt; auto. lia.
Qed.
(** ** Finding: unlike UTF-8, the order of UTF-16 code units is not the order of Strings: U+FFFF sorts
    before U+10000 as Strings and after it as UTF-16 text. *)
Theorem C75_utf16_order_finding : exists a b, scalars a /\ scalars b /\ lex_lt a b /\ lex_lt (utf16_text b) (utf16_text a).
Proof.
  exists [0xffff], [0x10000]. repeat split; try (repeat constructor; unfold scalar; lia).
  - apply lex_lt_head. lia.
  - cbv [utf16_text map concat utf16 app Z.ltb Z.compare]. apply lex_lt_head. vm_compute. auto.
Qed.
Example C75_nonvacuous :
  rel_l RLt [65; 66] (C8 [65; 0xe3; 0x81; 0x82]) = Ok true /\ rel_r RLt (C8 [65; 0xe3; 0x81; 0x82]) [65; 66] = Ok false
  /\ rel_l REq [0x1f600] (C16 [0xd83d; 0xde00]) = Ok true /\ rel_l RLe [65] (C8 [0xff]) = Exn
  /\ denotes (C8 [65; 0xe3; 0x81; 0x82]) [65; 0x3042] /\ lex_lt [65; 66] [65; 0x3042] /\ cmp_ok (C8 [0xff]).
Proof.
  repeat split; try reflexivity.
  - apply (d_8 [65; 0x3042]). repeat constructor; unfold scalar; lia.
  - apply lex_eq; [auto|]. apply lex_lt_head. lia.
  - repeat constructor; unfold is_byte; lia.
Qed.

Print Assumptions C74_members.
Print Assumptions C74_text_unique.
Print Assumptions C74_self_assign_finding.
Print Assumptions C74_append_self_finding.
Print Assumptions C75_relations.
Print Assumptions C75_total_order.
Print Assumptions C75_utf8_order.
Print Assumptions C75_utf16_order_finding.
