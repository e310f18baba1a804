(** Property C88, continued: loading the data, histories of calls, and findings. *)
From Coq Require Import Sorted.
Require Import Verif.Common Verif.PlsiModel Verif.PlsiProps.
Require Verif.SparseModel Verif.SparseProps Verif.TopScoreModel Verif.TopScoreProps.

(** ** Places *)
Lemma index_in l x : In x l <-> exists i, index_of l x = Some i.
Proof.
  induction l as [|a l IH]; cbn [index_of In]; [split; [intros []|intros (i & H); discriminate]|]. destruct (Z.eqb_spec a x) as [->|N].
  - split; eauto.
  - rewrite IH. split.
    + intros [->|(i & ->)]; [congruence|]. cbn. eauto.
    + intros (i & H). destruct (index_of l x) as [j|]; [eauto|discriminate].
Qed.
Lemma index_app l r x i : index_of l x = Some i -> index_of (l ++ r) x = Some i.
Proof.
  revert i. induction l as [|a l IH]; intros i; cbn [index_of app]; [discriminate|]. destruct (a =? x); auto. destruct (index_of l x) as [j|]; [|discriminate]. rewrite (IH j eq_refl). auto.
Qed.
Lemma index_snoc l x : ~ In x l -> index_of (l ++ [x]) x = Some (zlen l).
Proof.
  induction l as [|a l IH]; intros NI; cbn [index_of app]; [now rewrite Z.eqb_refl|]. destruct (Z.eqb_spec a x) as [->|N]; [destruct NI; left; auto|].
  rewrite IH by (intros I; apply NI; right; auto). rewrite zlen_cons. cbn [option_map]. f_equal. lia.
Qed.
Lemma existsb_in x l : existsb (Z.eqb x) l = true <-> In x l.
Proof. rewrite existsb_exists. split; [intros (y & I & E); apply Z.eqb_eq in E; subst; auto|intros I; exists x; rewrite Z.eqb_refl; auto]. Qed.
Lemma first_seen_app l1 : forall s l2, first_seen s (l1 ++ l2) = first_seen (first_seen s l1) l2.
Proof. induction l1 as [|x l1 IH]; intros s l2; cbn [app first_seen]; auto. Qed.
Lemma first_seen_prefix l : forall s, exists r, first_seen s l = s ++ r.
Proof.
  induction l as [|x l IH]; intros s; cbn [first_seen]; [exists []; now rewrite app_nil_r|]. destruct (existsb (Z.eqb x) s); auto. destruct (IH (s ++ [x])) as (r & ->). exists ([x] ++ r). now rewrite app_assoc.
Qed.
Lemma first_seen_in l : forall s x, In x (first_seen s l) <-> In x s \/ In x l.
Proof.
  induction l as [|y l IH]; intros s x; cbn [first_seen In]; [tauto|]. rewrite IH. destruct (existsb (Z.eqb y) s) eqn:E.
  - apply existsb_in in E. split; [tauto|]. intros [H|[->|H]]; auto.
  - rewrite in_app_iff. cbn [In]. tauto.
Qed.
Lemma first_seen_len l : forall s, zlen (first_seen s l) <= zlen s + zlen l.
Proof. induction l as [|y l IH]; intros s; cbn [first_seen]; rewrite ?zlen_nil, ?zlen_cons; [lia|]. specialize (IH (if existsb (Z.eqb y) s then s else s ++ [y])). destruct (existsb (Z.eqb y) s); rewrite ?zlen_app, ?zlen_cons, ?zlen_nil in *; lia. Qed.
Lemma obs_in ll : forall a i u, In (i, u) (obs_from a ll) <-> a <= i /\ exists l, nth_error ll (Z.to_nat (i - a)) = Some l /\ In u l.
Proof.
  induction ll as [|l ll IH]; intros a i u; cbn [obs_from].
  - split; [intros []|]. intros (_ & l & H & _). destruct (Z.to_nat (i - a)); discriminate.
  - rewrite in_app_iff, in_map_iff, IH. split.
    + intros [(v & E & I)|(H & l' & E & I)].
      * injection E as <- <-. split; [lia|]. rewrite Z.sub_diag. exists l. auto.
      * split; [lia|]. exists l'. replace (Z.to_nat (i - a)) with (S (Z.to_nat (i - (a + 1)))) by lia. auto.
    + intros (H & l' & E & I). destruct (Z.eq_dec i a) as [->|N].
      * rewrite Z.sub_diag in E. cbn in E. injection E as <-. left. eauto.
      * right. split; [lia|]. exists l'. replace (Z.to_nat (i - a)) with (S (Z.to_nat (i - (a + 1)))) in E by lia. auto.
Qed.

Section Load.
Context {F : Type}.
Notation plsi := (@plsi F).

Lemma indexed_snoc m l x : indexed m l -> ~ In x l -> indexed (m ++ [(x, zlen l)]) (l ++ [x]).
Proof.
  intros (ND & ->) NI. split.
  - clear -ND NI. induction l as [|a l IH]; cbn; [constructor; [intros []|constructor]|]. inversion ND; subst. constructor; [|apply IH; auto; intros I; apply NI; right; auto].
    rewrite in_app_iff. intros [I|[<-|[]]]; [auto|]. apply NI. left; auto.
  - rewrite zlen_app. change (zlen [x]) with 1. rewrite upto_snoc by apply zlen_nonneg.
    assert (L : length l = length (upto (zlen l))) by (pose proof (upto_len (zlen l) (zlen_nonneg l)) as U; unfold zlen in *; lia).
    revert L. generalize (upto (zlen l)). generalize (zlen l). clear. intros z k. revert k z. induction l as [|a l IH]; intros [|b k] z L; cbn in *; try discriminate; [reflexivity|]. f_equal. apply IH. lia.
Qed.
(** get_user_id and get_item_id give a key its place, adding it at the end if it is new *)
Theorem C88_user_id (p : plsi) user : indexed (users p) (userlist p) ->
  let (id, q) := get_user_id p user in
  userlist q = first_seen (userlist p) [user] /\ indexed (users q) (userlist q) /\ index_of (userlist q) user = Some id /\
  items q = items p /\ itemlist q = itemlist p /\ matrix q = matrix p /\ zv q = zv p /\ user_z q = user_z p /\ item_z q = item_z p.
Proof.
  intros I. unfold get_user_id. rewrite (lookup_ok _ _ _ I). destruct (index_of (userlist p) user) as [id|] eqn:E; cbn [first_seen].
  - assert (X : existsb (Z.eqb user) (userlist p) = true) by (apply existsb_in, index_in; eauto). rewrite X. auto 10.
  - assert (NI : ~ In user (userlist p)) by (intros Q; apply index_in in Q; destruct Q; congruence).
    destruct (existsb (Z.eqb user) (userlist p)) eqn:X; [apply existsb_in in X; contradiction|]. cbn [users userlist items itemlist matrix zv user_z item_z].
    split; [auto|]. split; [apply indexed_snoc; auto|]. split; [apply index_snoc; auto|]. auto 10.
Qed.
Theorem C88_item_id (p : plsi) item : indexed (items p) (itemlist p) ->
  let (id, q) := get_item_id p item in
  itemlist q = first_seen (itemlist p) [item] /\ indexed (items q) (itemlist q) /\ index_of (itemlist q) item = Some id /\ get_item_key q id = Ok item /\
  matrix q = (if existsb (Z.eqb item) (itemlist p) then matrix p else matrix p ++ [SparseModel.sv_new false]) /\
  users q = users p /\ userlist q = userlist p /\ zv q = zv p /\ user_z q = user_z p /\ item_z q = item_z p.
Proof.
  intros I. assert (KEY : forall (q : plsi) id, indexed (items q) (itemlist q) -> index_of (itemlist q) item = Some id -> get_item_key q id = Ok item).
  { intros q id (ND & _) E. apply index_of_nth in E; auto. destruct E as (H & E). unfold get_item_key, rd. destruct (Z.ltb_spec id 0); [lia|]. now rewrite E. }
  unfold get_item_id. rewrite (lookup_ok _ _ _ I). destruct (index_of (itemlist p) item) as [id|] eqn:E; cbn [first_seen].
  - assert (X : existsb (Z.eqb item) (itemlist p) = true) by (apply existsb_in, index_in; eauto). rewrite X. auto 12.
  - assert (NI : ~ In item (itemlist p)) by (intros Q; apply index_in in Q; destruct Q; congruence).
    destruct (existsb (Z.eqb item) (itemlist p)) eqn:X; [apply existsb_in in X; contradiction|].
    assert (IX : indexed (items p ++ [(item, zlen (itemlist p))]) (itemlist p ++ [item])) by (apply indexed_snoc; auto).
    cbn [users userlist items itemlist matrix zv user_z item_z].
    split; [auto|]. split; [auto|]. split; [apply index_snoc; auto|]. split; [apply KEY; cbn [items itemlist]; auto; apply index_snoc; auto|]. auto 12.
Qed.

Lemma insert_in k m : forall x, In x (insert_key k m) <-> x = k \/ In x m.
Proof.
  induction m as [|a m IH]; intros x; cbn [insert_key In]; [intuition|]. destruct (Z.eqb_spec k a) as [->|N]; [cbn [In]; intuition|]. destruct (k <? a); cbn [In]; [intuition|]. rewrite IH. intuition.
Qed.
Lemma insert_sorted k m : StronglySorted Z.lt m -> StronglySorted Z.lt (insert_key k m).
Proof.
  induction 1 as [|a m S IH FA]; cbn [insert_key]; [repeat constructor|]. destruct (Z.eqb_spec k a) as [->|N]; [constructor; auto|]. destruct (Z.ltb_spec k a).
  - constructor; [constructor; auto|]. constructor; auto. eapply Forall_impl; [|exact FA]. intros; cbn in *; lia.
  - constructor; auto. apply Forall_forall. intros x I. apply insert_in in I. destruct I as [->|I]; [lia|]. rewrite Forall_forall in FA. auto.
Qed.
Lemma insert_len k m : zlen (insert_key k m) <= zlen m + 1.
Proof. induction m as [|a m IH]; cbn [insert_key]; rewrite ?zlen_cons, ?zlen_nil; [lia|]. destruct (k =? a); [rewrite zlen_cons; lia|]. destruct (k <? a); rewrite !zlen_cons; lia. Qed.
Lemma user_ids_ok us : forall (p : plsi) m, indexed (users p) (userlist p) -> StronglySorted Z.lt m ->
  let (m', q) := user_ids p us m in
  userlist q = first_seen (userlist p) us /\ indexed (users q) (userlist q) /\ StronglySorted Z.lt m' /\ zlen m' <= zlen m + zlen us /\
  (forall x, In x m' <-> In x m \/ exists u, In u us /\ index_of (userlist q) u = Some x) /\
  items q = items p /\ itemlist q = itemlist p /\ matrix q = matrix p /\ zv q = zv p /\ user_z q = user_z p /\ item_z q = item_z p.
Proof.
  induction us as [|u us IH]; intros p m I S; cbn [user_ids first_seen].
  - rewrite zlen_nil. split; [auto|]. split; [auto|]. split; [auto|]. split; [lia|]. split; [|auto 10]. intros x. split; [auto|]. intros [H|(v & [] & _)]; auto.
  - pose proof (C88_user_id p u I) as C. destruct (get_user_id p u) as [id q]. destruct C as (C1 & C2 & C3 & C4 & C5 & C6 & C7 & C8 & C9).
    specialize (IH q (insert_key id m) C2 (insert_sorted _ _ S)). destruct (user_ids q us (insert_key id m)) as [m' r]. destruct IH as (D1 & D2 & D3 & D4 & D5 & D6 & D7 & D8 & D9 & D10 & D11).
    cbn [first_seen] in C1. split; [rewrite D1, C1; auto|]. split; [auto|]. split; [auto|]. split; [rewrite zlen_cons; pose proof (insert_len id m); lia|]. split.
    + intros x. rewrite D5, insert_in.
      assert (U : index_of (userlist r) u = Some id) by (destruct (first_seen_prefix us (userlist q)) as (t & Et); rewrite D1, Et; apply index_app; auto).
      split.
      * intros [[->|H]|(v & Hv & E)]; auto; right; [exists u|exists v]; split; auto; [left; auto|right; auto].
      * intros [H|(v & [->|Hv] & E)]; auto; [|right; eauto]. left. left. congruence.
    + rewrite D6, D7, D8, D9, D10, D11. auto 10.
Qed.

(** ** The rows *)
Definition pairs (l : list Z) : list (Z * bool) := map (fun k => (k, true)) l.
Definition row_is (row : SparseModel.sv bool) (l : list Z) : Prop := SparseProps.repr row (pairs l) /\ SparseProps.is_packed (SparseModel.tab row) = false.
Lemma row_set m : forall row l, row_is row l -> (forall x, In x m -> 0 <= x < 2 ^ 64) ->
  let (row', thrown) := SparseModel.sv_set row (pairs m) in thrown = false -> row_is row' (l ++ m).
Proof.
  induction m as [|k m IH]; intros row l (R & P) H; cbn [pairs map SparseModel.sv_set].
  - intros _. rewrite app_nil_r. split; auto.
  - destruct (SparseProps.repr_push row (pairs l) k true R) as (v & -> & P' & R'); [apply H; left; auto|]. rewrite P in R'. rewrite P.
    destruct (SparseProps.accepts false (pairs l) k); cbn [negb].
    + specialize (IH v (l ++ [k])). fold (pairs m). destruct (SparseModel.sv_set v (pairs m)) as [row' thrown]. intros T. rewrite <- app_assoc in IH. apply IH; auto.
      * split; [|congruence]. unfold pairs. rewrite map_app. exact R'.
      * intros x I. apply H. right; auto.
    + discriminate.
Qed.
Lemma row_set_new m : StronglySorted Z.lt m -> (forall x, In x m -> 0 <= x < 2 ^ 32) -> snd (SparseModel.sv_set (SparseModel.sv_new false) (pairs m)) = false.
Proof.
  intros S H. assert (G : forall m row l, row_is row l -> (forall x y, In x l -> In y m -> x < y) -> StronglySorted Z.lt m -> (forall x, In x m -> 0 <= x < 2 ^ 32) -> snd (SparseModel.sv_set row (pairs m)) = false).
  { clear. induction m as [|k m IH]; intros row l (R & P) H S B; cbn [pairs map SparseModel.sv_set]; auto.
    destruct (SparseProps.repr_push row (pairs l) k true R) as (v & -> & P' & R'); [specialize (B k (or_introl eq_refl)); lia|]. rewrite P in R'. rewrite P.
    assert (A : SparseProps.accepts false (pairs l) k = true).
    { unfold SparseProps.accepts. pose proof (B k (or_introl eq_refl)). destruct (Z.ltb_spec k (2 ^ 32)); [|lia]. rewrite andb_true_r. apply orb_true_iff.
      destruct l as [|a l] using rev_ind; [left; reflexivity|]. right. unfold pairs. rewrite map_app. cbn [map]. rewrite SparseProps.last_pos_snoc. apply Z.ltb_lt. apply H; [apply in_or_app; right; left; auto|left; auto]. }
    rewrite A in *. cbn [negb]. inversion S as [|? ? S' FA]; subst. apply (IH v (l ++ [k])); auto.
    - split; [|congruence]. unfold pairs. rewrite map_app. exact R'.
    - intros x y Ix Iy. apply in_app_iff in Ix. destruct Ix as [Ix|[<-|[]]]; [apply H; auto; right; auto|]. rewrite Forall_forall in FA. auto.
    - intros x I. apply B. right; auto. }
  apply (G m _ []); auto. split; [apply SparseProps.repr_new|reflexivity]. intros x y [].
Qed.
Lemma row_sorted row l : row_is row l -> StronglySorted Z.lt l.
Proof.
  intros ((_ & V & _) & _). apply SparseProps.valid_sorted in V. unfold pairs in V. rewrite map_map in V. cbn [fst] in V. rewrite map_id in V. exact V.
Qed.

(** ** Loading *)
Definition load (lines : list (Z * list Z)) : res plsi := foldM observe lines plsi_new.
Definition untrained (p : plsi) : Prop := zv p = [] /\ user_z p = [] /\ item_z p = [].
Definition loaded (lines : list (Z * list Z)) (p : plsi) (ll : list (list Z)) : Prop :=
  userlist p = seen_users lines /\ itemlist p = seen_items lines /\ data p ll /\ untrained p /\ user_places lines ll /\
  zlen (obs_from 0 ll) <= zlen (concat (map snd lines)).

Lemma used_snoc lines line : used (lines ++ [line]) = used lines ++ (match snd line with [] => [] | _ => [line] end).
Proof. unfold used. rewrite filter_app. cbn [filter]. destruct (snd line); reflexivity. Qed.
Lemma seen_items_snoc lines item us : us <> [] -> seen_items (lines ++ [(item, us)]) = first_seen (seen_items lines) [item].
Proof. intros N. unfold seen_items. rewrite used_snoc. cbn [snd]. destruct us; [congruence|]. rewrite map_app, first_seen_app. reflexivity. Qed.
Lemma seen_users_snoc lines item us : us <> [] -> seen_users (lines ++ [(item, us)]) = first_seen (seen_users lines) us.
Proof. intros N. unfold seen_users. rewrite used_snoc. cbn [snd]. destruct us; [congruence|]. rewrite map_app, concat_app, first_seen_app. cbn [map concat snd]. now rewrite app_nil_r. Qed.
Lemma seen_empty lines item : seen_items (lines ++ [(item, [])]) = seen_items lines /\ seen_users (lines ++ [(item, [])]) = seen_users lines.
Proof. unfold seen_items, seen_users. rewrite used_snoc. cbn [snd]. now rewrite app_nil_r. Qed.
Lemma obs_upd_len ll : forall a n l l', nth_error ll n = Some l -> zlen (obs_from a (upd ll n l')) = zlen (obs_from a ll) - zlen l + zlen l'.
Proof.
  induction ll as [|x ll IH]; intros a [|n] l l' E; cbn in E; try discriminate; cbn [upd obs_from]; rewrite !zlen_app.
  - injection E as ->. unfold zlen. rewrite !map_length. lia.
  - rewrite (IH _ _ _ _ E). lia.
Qed.
Lemma obs_snoc_nil ll : forall a, obs_from a (ll ++ [[]]) = obs_from a ll.
Proof. induction ll as [|x ll IH]; intros a; cbn [app obs_from map]; auto. now rewrite IH. Qed.
Lemma seen_items_in lines item us : In (item, us) lines -> us <> [] -> In item (seen_items lines).
Proof.
  intros I N. apply first_seen_in. right. apply in_map_iff. exists (item, us). split; auto. apply filter_In. split; auto. cbn. destruct us; congruence.
Qed.
Lemma seen_users_in lines item us u : In (item, us) lines -> In u us -> In u (seen_users lines).
Proof.
  intros I N. apply first_seen_in. right. apply in_concat. exists us. split; auto. apply in_map_iff. exists (item, us). split; auto. apply filter_In. split; auto. cbn. destruct us; [destruct N|auto].
Qed.
Lemma nth_upd {A} (l : list A) : forall n m x, nth_error (upd l n x) m = if Nat.eqb n m then (match nth_error l m with Some _ => Some x | None => None end) else nth_error l m.
Proof. induction l as [|a l IH]; intros [|n] [|m] x; cbn; auto; destruct (Nat.eqb n m); auto. Qed.
Lemma Forall2_upd {A B} (R : A -> B -> Prop) l l' n x y : Forall2 R l l' -> R x y -> Forall2 R (upd l n x) (upd l' n y).
Proof. intros H Hx. revert n. induction H; intros [|n]; cbn; constructor; auto. Qed.
Lemma Forall2_nth {A B} (R : A -> B -> Prop) l l' n x y : Forall2 R l l' -> nth_error l n = Some x -> nth_error l' n = Some y -> R x y.
Proof. intros H. revert n. induction H; intros [|n] E1 E2; cbn in *; try discriminate; [congruence|eauto]. Qed.
Lemma Forall2_zlen {A B} (R : A -> B -> Prop) l l' : Forall2 R l l' -> zlen l = zlen l'.
Proof. intros H. induction H; auto. rewrite !zlen_cons. lia. Qed.

Lemma observe_ok lines p ll line : loaded lines p ll -> zlen (concat (map snd (lines ++ [line]))) < 2 ^ 32 ->
  match observe p line with
  | Ok q => exists ll', loaded (lines ++ [line]) q ll'
  | Exn => In (fst line) (seen_items lines)
  | _ => False
  end.
Proof.
  destruct line as [item us]. intros (LU & LI & D & UT & UP & LN) Hn. unfold observe. destruct us as [|u0 us0] eqn:Eus.
  - exists ll. destruct (seen_empty lines item) as (E1 & E2). unfold loaded, user_places. rewrite E1, E2. rewrite map_app, concat_app, zlen_app in *. cbn [map concat snd app] in *. rewrite zlen_nil in *.
    split; [auto|]. split; [auto|]. split; [auto|]. split; [auto|]. split; [|lia]. destruct UP as (P1 & P2 & P3). split; [auto|]. split; [auto|]. intros i u. rewrite P3. split.
    + intros (it & w & l & H & Q). exists it, w, l. split; auto. apply in_or_app. auto.
    + intros (it & w & l & H & Q1 & Q). exists it, w, l. split; auto. apply in_app_or in H. destruct H as [H|[H|[]]]; auto. injection H as <- <-. destruct Q1.
  - rewrite <- Eus in *. assert (NE : us <> []) by (subst; discriminate). clear Eus u0 us0.
    destruct D as (DU & DI & DR & DL & DO).
    pose proof (user_ids_ok us p [] DU ltac:(constructor)) as C. destruct (user_ids p us []) as [m q]. destruct C as (C1 & C2 & C3 & C3' & C4 & C5 & C6 & C7 & C8 & C9 & C10).
    assert (DIq : indexed (items q) (itemlist q)) by (rewrite C5, C6; auto).
    pose proof (C88_item_id q item DIq) as E. destruct (get_item_id q item) as [id r]. destruct E as (E1 & E2 & E3 & _ & E4 & E5 & E6 & E7 & E8 & E9).
    rewrite C6, LI in E1, E4. rewrite <- (seen_items_snoc lines item us NE) in E1. rewrite LU, <- (seen_users_snoc lines item us NE) in C1.
    rewrite C7 in E4.
    (* the rows before set *)
    set (ll1 := if existsb (Z.eqb item) (seen_items lines) then ll else ll ++ [[]]).
    assert (R1 : Forall2 row_is (matrix r) ll1).
    { rewrite E4. unfold ll1. destruct (existsb (Z.eqb item) (seen_items lines)); auto. apply Forall2_app; auto. constructor; [|constructor]. split; [apply SparseProps.repr_new|reflexivity]. }
    assert (L1 : zlen ll1 = zlen (itemlist r)).
    { rewrite E1, seen_items_snoc by auto. unfold ll1. cbn [first_seen]. destruct (existsb (Z.eqb item) (seen_items lines)); [congruence|]. rewrite !zlen_app. rewrite DL, LI. reflexivity. }
    assert (O1 : obs_from 0 ll1 = obs_from 0 ll) by (unfold ll1; destruct (existsb (Z.eqb item) (seen_items lines)); auto; apply obs_snoc_nil).
    pose proof (index_range _ _ _ E3) as Hid. pose proof (Forall2_zlen _ _ _ R1) as LM.
    destruct (nth_error (matrix r) (Z.to_nat id)) as [row|] eqn:Er; [|apply nth_error_None in Er; unfold zlen in *; lia].
    destruct (nth_error ll1 (Z.to_nat id)) as [l|] eqn:El; [|apply nth_error_None in El; unfold zlen in *; lia].
    assert (RD : rd (matrix r) id = Ok row) by (unfold rd; destruct (Z.ltb_spec id 0); [lia|]; now rewrite Er). rewrite RD. cbn [bind].
    assert (RI : row_is row l) by (eapply Forall2_nth; eauto).
    assert (UR : zlen (userlist q) <= zlen (concat (map snd (lines ++ [(item, us)])))).
    { rewrite C1. unfold seen_users. etransitivity; [apply first_seen_len|]. rewrite zlen_nil. clear. generalize (lines ++ [(item, us)]). intros L.
      induction L as [|[a b] L IH]; [cbn; lia|]. cbn [used filter snd]. destruct b; cbn [map concat snd app]; fold (used L); [exact IH|]. rewrite !zlen_cons, !zlen_app in *. lia. }
    assert (MR : forall x, In x m -> 0 <= x < zlen (userlist q)).
    { intros x I. apply C4 in I. destruct I as [[]|(u & _ & I)]. apply index_range in I. auto. }
    pose proof (row_set m row l RI) as RS. fold (pairs m). destruct (SparseModel.sv_set row (pairs m)) as [row' thrown] eqn:ES. destruct thrown.
    + (* thrown *)
      destruct (existsb (Z.eqb item) (seen_items lines)) eqn:EX; [apply existsb_in in EX; exact EX|]. exfalso.
      (* a new item has an empty row *)
      assert (RW : row = SparseModel.sv_new false /\ l = []).
      { assert (NI : ~ In item (seen_items lines)) by (intros Q; apply existsb_in in Q; congruence).
        rewrite E1, seen_items_snoc in E3 by auto. cbn [first_seen] in E3. rewrite EX in E3. rewrite index_snoc in E3 by auto. injection E3 as <-.
        unfold ll1 in El. rewrite E4 in Er. 
        assert (Zl : zlen (matrix p) = zlen (seen_items lines)) by (rewrite (Forall2_zlen _ _ _ DR); congruence).
        assert (Zm : zlen ll = zlen (seen_items lines)) by congruence.
        rewrite nth_error_app2 in Er, El by (unfold zlen in *; lia). unfold zlen in *. replace (Z.to_nat (Z.of_nat (length (seen_items lines))) - length (matrix p))%nat with 0%nat in Er by lia.
        replace (Z.to_nat (Z.of_nat (length (seen_items lines))) - length ll)%nat with 0%nat in El by lia. cbn in Er, El. split; congruence. }
      destruct RW as (-> & ->). pose proof (row_set_new m C3) as Q. rewrite ES in Q. cbn [snd] in Q. discriminate Q. intros x I. apply MR in I. lia.
    + (* stored *)
      assert (RI' : row_is row' (l ++ m)) by (apply RS; auto; intros x I; apply MR in I; lia).
      assert (W : wr (matrix r) id row' = Ok (upd (matrix r) (Z.to_nat id) row')).
      { unfold wr. destruct (Z.ltb_spec id 0); [lia|]. destruct (Z.leb_spec (Z.of_nat (length (matrix r))) id); [unfold zlen in *; lia|]. reflexivity. }
      rewrite W. cbn [bind]. set (ll' := upd ll1 (Z.to_nat id) (l ++ m)). exists ll'.
      assert (OB : forall i u, In (i, u) (obs_from 0 ll') <-> In (i, u) (obs_from 0 ll) \/ (i = id /\ In u m)).
      { intros i u. rewrite <- O1, !obs_in. rewrite !Z.sub_0_r. unfold ll'. split.
        - intros (H & l' & E & I). rewrite nth_upd in E. destruct (Nat.eqb_spec (Z.to_nat id) (Z.to_nat i)) as [Q|Q].
          + rewrite <- Q, El in E. injection E as <-. assert (i = id) by lia. subst i. apply in_app_or in I. destruct I as [I|I]; [left|right]; auto. split; auto. exists l. auto.
          + left. split; auto. eauto.
        - intros [(H & l' & E & I)|(-> & I)].
          + split; auto. rewrite nth_upd. destruct (Nat.eqb_spec (Z.to_nat id) (Z.to_nat i)) as [Q|Q].
            * rewrite E. exists (l ++ m). split; auto. rewrite <- Q, El in E. injection E as <-. apply in_or_app. auto.
            * eauto.
          + split; [lia|]. rewrite nth_upd, Nat.eqb_refl, El. exists (l ++ m). split; auto. apply in_or_app. auto. }
      assert (UL : userlist r = seen_users (lines ++ [(item, us)])) by (rewrite E6, C1; auto).
      assert (R2 : Forall2 row_is (upd (matrix r) (Z.to_nat id) row') ll') by (apply Forall2_upd; auto).
      unfold loaded, untrained, data, set_matrix, rows_are. cbn [users userlist items itemlist matrix zv user_z item_z]. rewrite E7, E8, E9, C8, C9, C10.
      split; [exact UL|]. split; [auto|]. split; [|split; [exact UT|split]].
      * split; [rewrite E5, E6; auto|]. split; [auto|]. split; [exact R2|]. split; [unfold ll', zlen; rewrite upd_length; exact L1|].
        intros i u I. apply OB in I. destruct I as [I|(_ & I)].
        -- apply DO in I. rewrite UL, seen_users_snoc by auto. destruct (first_seen_prefix us (seen_users lines)) as (t & ->). rewrite zlen_app. pose proof (zlen_nonneg t). rewrite LU in I. lia.
        -- rewrite E6. apply MR. auto.
      * destruct UP as (P1 & P2 & P3). split; [unfold ll', zlen; rewrite upd_length, <- E1; exact L1|]. split.
        { clear -R2. induction R2; constructor; auto. eapply row_sorted; eauto. }
        intros i u. rewrite OB, P3. rewrite E1 in E3. split.
        -- intros [(it & w & ws & H & Q1 & Q2 & Q3)|(-> & I)].
           ++ exists it, w, ws. split; [apply in_or_app; auto|]. split; [auto|]. rewrite seen_items_snoc, seen_users_snoc by auto.
              destruct (first_seen_prefix us (seen_users lines)) as (t & ->). destruct (first_seen_prefix [item] (seen_items lines)) as (t' & ->). split; apply index_app; auto.
           ++ apply C4 in I. destruct I as [[]|(w & Hw & I)]. exists item, w, us. split; [apply in_or_app; right; left; auto|]. rewrite C1 in I. auto.
        -- intros (it & w & ws & H & Q1 & Q2 & Q3). apply in_app_or in H. destruct H as [H|[H|[]]].
           ++ left. exists it, w, ws. split; [auto|]. split; [auto|].
              assert (A1 : In it (seen_items lines)) by (eapply seen_items_in; eauto; intros ->; destruct Q1). assert (A2 : In w (seen_users lines)) by (eapply seen_users_in; eauto).
              apply index_in in A1. apply index_in in A2. destruct A1 as (i' & A1), A2 as (u' & A2). rewrite seen_items_snoc in Q2 by auto. rewrite seen_users_snoc in Q3 by auto.
              destruct (first_seen_prefix us (seen_users lines)) as (t & Et). destruct (first_seen_prefix [item] (seen_items lines)) as (t' & Et'). rewrite Et in Q3. rewrite Et' in Q2.
              rewrite (index_app _ _ _ _ A1) in Q2. rewrite (index_app _ _ _ _ A2) in Q3. injection Q2 as <-. injection Q3 as <-. auto.
           ++ injection H as <- <-. right. split; [congruence|]. apply C4. right. exists w. split; auto. rewrite C1. auto.
      * unfold ll'. rewrite (obs_upd_len _ _ _ l) by auto. rewrite O1, zlen_app. rewrite map_app, concat_app, zlen_app. cbn [map concat snd]. rewrite app_nil_r. cbn [zlen length] in C3'. change (zlen (@nil Z)) with 0 in C3'. lia.
Qed.

Lemma load_ok rest : forall lines p ll, loaded lines p ll -> zlen (concat (map snd (lines ++ rest))) < 2 ^ 32 ->
  match foldM observe rest p with
  | Ok q => exists ll', loaded (lines ++ rest) q ll'
  | Exn => ~ NoDup (map fst (used (lines ++ rest)))
  | _ => False
  end.
Proof.
  induction rest as [|line rest IH]; intros lines p ll L H; cbn [foldM]; [rewrite app_nil_r; eauto|].
  pose proof (observe_ok lines p ll line L) as O. replace (lines ++ line :: rest) with ((lines ++ [line]) ++ rest) in * by (rewrite <- app_assoc; auto).
  destruct (observe p line) as [q| | |] eqn:E; cbn [bind].
  - destruct O as (ll' & O); [|apply (IH _ _ _ O H)]. rewrite map_app, concat_app, zlen_app in H. pose proof (zlen_nonneg (concat (map snd rest))). lia.
  - assert (I : In (fst line) (seen_items lines)) by (apply O; rewrite map_app, concat_app, zlen_app in H; pose proof (zlen_nonneg (concat (map snd rest))); lia).
    apply first_seen_in in I. destruct I as [[]|I]. unfold used. rewrite !filter_app, !map_app. fold (used lines). destruct line as [item us]. cbn [filter snd fst] in *. destruct us as [|u us]; [cbn in E; discriminate|]. cbn [map fst].
    intros ND. rewrite <- app_assoc in ND. apply NoDup_remove_2 in ND. apply ND. apply in_or_app. left. auto.
  - apply O. rewrite map_app, concat_app, zlen_app in H. pose proof (zlen_nonneg (concat (map snd rest))). lia.
  - apply O. rewrite map_app, concat_app, zlen_app in H. pose proof (zlen_nonneg (concat (map snd rest))). lia.
Qed.
(** ** C88: loading either throws, which needs an item that has two lines, or gives exactly the data *)
Theorem C88_load lines : zlen (concat (map snd lines)) < 2 ^ 32 ->
  match load lines with
  | Ok p => exists ll, userlist p = seen_users lines /\ itemlist p = seen_items lines /\ user_places lines ll /\ data p ll /\ untrained p /\
      zlen (obs_from 0 ll) <= zlen (concat (map snd lines))
  | Exn => ~ NoDup (map fst (used lines))
  | _ => False
  end.
Proof.
  intros H. assert (L0 : loaded [] plsi_new []).
  { split; [auto|]. split; [auto|]. split; [|split; [|split; [|cbn; lia]]].
    - split; [split; [constructor|reflexivity]|]. split; [split; [constructor|reflexivity]|]. split; [constructor|]. split; [reflexivity|]. intros i u [].
    - repeat split.
    - split; [reflexivity|]. split; [constructor|]. intros i u. cbn [obs_from]. split; [intros []|]. intros (a & b & c & [] & _). }
  pose proof (load_ok lines [] plsi_new [] L0 H) as Q. cbn [app] in Q. unfold load. destruct (foldM observe lines plsi_new); auto.
  destruct Q as (ll & Q1 & Q2 & Q3 & Q4 & Q5 & Q6). exists ll. auto 10.
Qed.
End Load.

Lemma upto_cons n : 1 <= n -> upto n = 0 :: map Z.of_nat (seq 1 (Z.to_nat n - 1)).
Proof. intros H. unfold upto. replace (Z.to_nat n) with (S (Z.to_nat n - 1)) at 1 by lia. reflexivity. Qed.

Section History.
Context {F : Type}.
Variables (fadd fmul fdiv fpow : F -> F -> F) (fopp flog fexp : F -> F) (fz : Z -> F).
Variables (gtb leb : F -> F -> bool).
Variable (rnd : nat -> F).

(** ** Histories *)
Inductive op := Step (beta : F) | Search (user top : Z) | Similar (item : Z) (ty : search_type) (top : Z) | Perplexity.
Inductive out := Likelihood (x : F) | Table (t : list (F * Z)) | Perplex (x : F).
Definition call (p : @plsi F) (o : op) : res (out * @plsi F) :=
  match o with
  | Step beta => let! (x, p) := step fadd fmul fdiv fpow flog fz p beta in Ok (Likelihood x, p)
  | Search u n => let! (t, p) := search_items fadd fmul fdiv fz gtb leb p u n in Ok (Table t, p)
  | Similar i ty n => let! (t, p) := similar_items fadd fmul fdiv fz gtb leb p i ty n in Ok (Table t, p)
  | Perplexity => let! (x, p) := perplexity fadd fmul fdiv fopp flog fexp fz p in Ok (Perplex x, p)
  end.
Fixpoint calls (p : @plsi F) (ops : list op) : res (list out * @plsi F) :=
  match ops with
  | [] => Ok ([], p)
  | o :: ops => let! (x, p) := call p o in let! (xs, p) := calls p ops in Ok (x :: xs, p)
  end.
(** load the lines, start with K classes, and call *)
Definition session (lines : list (Z * list Z)) (K : Z) (ops : list op) : res (list out * @plsi F) :=
  let! p := load lines in let! p := startLearning fadd fdiv fz rnd p K in calls p ops.
(** queries name users and items of the data and ask for 2 or more entries *)
Definition about (lines : list (Z * list Z)) (o : op) : Prop :=
  match o with
  | Step _ | Perplexity => True
  | Search u n => In u (seen_users lines) /\ 2 <= n < 2 ^ 31
  | Similar i _ n => In i (seen_items lines) /\ 2 <= n < 2 ^ 31
  end.
(** the state between calls *)
Definition ready (lines : list (Z * list Z)) (K : Z) (ll : list (list Z)) (p : @plsi F) : Prop :=
  userlist p = seen_users lines /\ itemlist p = seen_items lines /\ data p ll /\ shaped p K.
(** what a call shows in state p, the state after it being q *)
Definition shows (ll : list (list Z)) (p : @plsi F) (o : op) (x : out) (q : @plsi F) : Prop :=
  match o with
  | Step beta => x = Likelihood (fsum fadd fz (fun o => flog (total fadd fmul fpow fz p beta o)) (obs_from 0 ll)) /\ em_update fadd fmul fdiv fpow fz p q beta (obs_from 0 ll)
  | Search user n => q = p /\ exists t u, x = Table t /\ index_of (userlist p) user = Some u /\
      ranked gtb leb n (map (fun i => (user_score fadd fmul fdiv fz p u i, i)) (upto (zlen (itemlist p)))) t
  | Similar item ty n => q = p /\ exists t i, x = Table t /\ index_of (itemlist p) item = Some i /\
      ranked gtb leb n (map (fun j => (item_score fadd fmul fdiv fz p ty i j, j)) (upto (zlen (itemlist p)))) t
  | Perplexity => x = Perplex (perplexity_spec fadd fmul fdiv fopp flog fexp fz p (obs_from 0 ll)) /\ zv q = zv p /\ user_z q = user_z p /\ item_z q = item_z p
  end.
Lemma call_ok lines K ll p o : small K ll -> ready lines K ll p -> about lines o -> exists x q, call p o = Ok (x, q) /\ ready lines K ll q /\ shows ll p o x q.
Proof.
  intros Sm (RU & RI & D & Sh) A. destruct o as [beta|user n|item ty n|]; cbn [call about shows] in *.
  - destruct (C88_step fadd fmul fdiv fpow fopp flog fexp fz gtb leb p ll K beta D Sh Sm) as (q & -> & EM & D' & Sh' & E1 & E2). cbn [bind]. eexists _, q. split; [reflexivity|]. split; [unfold ready; rewrite E1, E2; auto|]. auto.
  - destruct A as (I & Hn). rewrite <- RU in I. apply index_in in I. destruct I as (u & I).
    destruct (C88_search fadd fmul fdiv fpow fopp flog fexp fz gtb leb rnd p ll K user u n D Sh Sm I Hn) as (t & -> & R). cbn [bind]. eexists _, p. split; [reflexivity|]. split; [unfold ready; auto|]. split; auto. exists t, u. auto.
  - destruct A as (I & Hn). rewrite <- RI in I. apply index_in in I. destruct I as (i & I).
    destruct (C88_similar fadd fmul fdiv fpow fopp flog fexp fz gtb leb rnd p ll K item ty i n D Sh Sm I Hn) as (t & -> & R). cbn [bind]. eexists _, p. split; [reflexivity|]. split; [unfold ready; auto|]. split; auto. exists t, i. auto.
  - destruct (C88_perplexity fadd fmul fdiv fpow fopp flog fexp fz gtb leb p ll K D Sh Sm) as (q & -> & D' & E1 & E2 & E3 & E4 & E5). cbn [bind]. eexists _, q. split; [reflexivity|]. split; [|auto].
    unfold ready, shaped. rewrite E1, E2, E3, E4, E5. split; [auto|]. split; [auto|]. split; [auto|]. exact Sh.
Qed.
(** the states a session goes through *)
Inductive trace (ll : list (list Z)) : @plsi F -> list op -> list out -> @plsi F -> Prop :=
| trace_nil p : trace ll p [] [] p
| trace_cons p o x q ops xs r : shows ll p o x q -> trace ll q ops xs r -> trace ll p (o :: ops) (x :: xs) r.
Lemma calls_ok lines K ll ops : forall p, small K ll -> ready lines K ll p -> Forall (about lines) ops ->
  exists xs q, calls p ops = Ok (xs, q) /\ trace ll p ops xs q /\ ready lines K ll q.
Proof.
  induction ops as [|o ops IH]; intros p Sm R A; cbn [calls]; [exists [], p; split; [auto|split; [constructor|auto]]|]. inversion A as [|? ? A1 A2]; subst.
  destruct (call_ok lines K ll p o Sm R A1) as (x & q & -> & R' & Sw). cbn [bind]. destruct (IH q Sm R' A2) as (xs & r & -> & T & R2). cbn [bind]. exists (x :: xs), r. split; auto. split; auto. econstructor; eauto.
Qed.
(** ** C88: a session on data whose items have one line each runs without fault, and every call shows what the specification says *)
Theorem C88_history lines K ops : NoDup (map fst (used lines)) -> zlen (concat (map snd lines)) < 2 ^ 30 - 1 -> 0 <= K < 2 ^ 31 -> Forall (about lines) ops ->
  exists ll p xs q, user_places lines ll /\ started fadd fdiv fz rnd p K /\ ready lines K ll p /\ trace ll p ops xs q /\ session lines K ops = Ok (xs, q).
Proof.
  intros ND Hn HK A. unfold session. pose proof (@C88_load F lines ltac:(lia)) as L. destruct (load lines) as [p0| | |]; [|contradiction|contradiction|contradiction].
  destruct L as (ll & L1 & L2 & L3 & L4 & (U1 & U2 & U3) & L5). cbn [bind].
  destruct (C88_start fadd fmul fdiv fpow fopp flog fexp fz gtb leb rnd p0 ll K L4 U1 U2 U3 ltac:(lia)) as (p & -> & St & D & Sh & E1 & E2). cbn [bind].
  assert (R : ready lines K ll p) by (unfold ready; rewrite E1, E2; auto). assert (Sm : small K ll) by (unfold small; lia).
  destruct (calls_ok lines K ll ops p Sm R A) as (xs & q & E & T & _). exists ll, p, xs, q. auto 10.
Qed.

(** ** Findings *)
(** ** Finding: asking for a user (or an item) that is not in the data adds it to the tables of ids and then reads the learned vectors past their end *)
Theorem C88_unknown_finding lines K ll p user item ty top : small K ll -> ready lines K ll p -> 1 <= K -> 2 <= top < 2 ^ 31 ->
  (~ In user (seen_users lines) -> search_items fadd fmul fdiv fz gtb leb p user top = UB) /\
  (~ In item (seen_items lines) -> similar_items fadd fmul fdiv fz gtb leb p item ty top = UB).
Proof.
  intros (HK & Hn) (RU & RI & (DU & DI & DR & DL & DO) & (S1 & S2 & S3 & S4 & S5)) K1 Ht.
  pose proof (upto_cons K K1) as U0.
  assert (RL : forall {A} (l : list (list A)) n j, 1 <= zlen l -> Forall (fun r => zlen r = n) l -> n <= j -> rd2 l 0 j = UB).
  { intros A l n j H1 FA Hj. destruct l as [|r l]; [cbn in H1; lia|]. inversion FA; subst. unfold rd2. cbn [rd Z.ltb Z.compare Z.to_nat nth_error bind]. unfold rd. pose proof (zlen_nonneg r). destruct (Z.ltb_spec j 0); [lia|].
    destruct (nth_error r (Z.to_nat j)) eqn:E; auto. assert (nth_error r (Z.to_nat j) <> None) as N by congruence. apply nth_error_Some in N. unfold zlen in *. lia. }
  split; intros NI.
  - unfold search_items. rewrite S1, int_of_id by lia. unfold get_user_id. rewrite (lookup_ok _ _ _ DU).
    destruct (index_of (userlist p) user) eqn:E; [destruct NI; rewrite <- RU; apply index_in; eauto|]. cbn [zv user_z item_z items]. rewrite U0. cbn [foldM].
    rewrite (el_ok (fz 0)) by lia. cbn [bind]. rewrite (RL F (user_z p) (zlen (userlist p))) by (auto; lia). reflexivity.
  - unfold similar_items. rewrite S1, int_of_id by lia. unfold get_item_id. rewrite (lookup_ok _ _ _ DI).
    destruct (index_of (itemlist p) item) eqn:E; [destruct NI; rewrite <- RI; apply index_in; eauto|]. cbn [zv user_z item_z items]. unfold top_start. destruct (Z.ltb_spec top 0); [lia|]. cbn [bind].
    rewrite zlen_app. change (zlen [(item, zlen (itemlist p))]) with 1. rewrite (indexed_len _ _ DI).
    destruct ty.
    + rewrite upto_snoc by apply zlen_nonneg. rewrite foldM_app.
      match goal with |- context [foldM ?f (upto (zlen (itemlist p))) ?t] => assert (Q : foldM f (upto (zlen (itemlist p))) t = UB \/ itemlist p = []) end.
      { destruct (Z.eq_dec (zlen (itemlist p)) 0) as [Z0|Z0]; [right; destruct (itemlist p); [auto|rewrite zlen_cons in Z0; pose proof (zlen_nonneg l); lia]|left]. pose proof (zlen_nonneg (itemlist p)) as NN. pose proof (upto_cons (zlen (itemlist p)) ltac:(lia)) as P.
        rewrite P. cbn [foldM]. rewrite U0. cbn [foldM]. rewrite (el2_ok (fz 0) (item_z p) (zlen (itemlist p))) by (auto; lia). cbn [bind].
        rewrite (RL F (item_z p) (zlen (itemlist p))) by (auto; lia). reflexivity. }
      destruct Q as [-> | Q]; [reflexivity|]. rewrite Q in *. cbn [upto zlen length Z.of_nat Z.to_nat seq map foldM bind]. rewrite U0. cbn [foldM].
      rewrite (RL F (item_z p) (zlen (@nil Z))) by (auto; cbn; lia). reflexivity.
    + rewrite U0. cbn [foldM]. rewrite (el_ok (fz 0)) by lia. cbn [bind]. rewrite (RL F (item_z p) (zlen (itemlist p))) by (auto; lia). reflexivity.
    + rewrite upto_snoc by apply zlen_nonneg. rewrite foldM_app.
      match goal with |- context [foldM ?f (upto (zlen (itemlist p))) ?t] => assert (Q : foldM f (upto (zlen (itemlist p))) t = UB \/ itemlist p = []) end.
      { destruct (Z.eq_dec (zlen (itemlist p)) 0) as [Z0|Z0]; [right; destruct (itemlist p); [auto|rewrite zlen_cons in Z0; pose proof (zlen_nonneg l); lia]|left]. pose proof (zlen_nonneg (itemlist p)) as NN. pose proof (upto_cons (zlen (itemlist p)) ltac:(lia)) as P.
        rewrite P. cbn [foldM]. rewrite U0. cbn [foldM]. rewrite (el2_ok (fz 0) (item_z p) (zlen (itemlist p))) by (auto; lia). cbn [bind].
        rewrite (el_ok (fz 0) (zv p)) by lia. cbn [bind]. rewrite (RL F (item_z p) (zlen (itemlist p))) by (auto; lia). reflexivity. }
      destruct Q as [-> | Q]; [reflexivity|]. rewrite Q in *. cbn [upto zlen length Z.of_nat Z.to_nat seq map foldM bind]. rewrite U0. cbn [foldM].
      rewrite (RL F (item_z p) (zlen (@nil Z))) by (auto; cbn; lia). reflexivity.
Qed.
(** ** Finding: step without any observation divides 0 by 0, so p(z) is no longer a number *)
Theorem C88_no_data_finding K beta : 0 <= K < 2 ^ 31 -> exists p x q, startLearning fadd fdiv fz rnd plsi_new K = Ok p /\ step fadd fmul fdiv fpow flog fz p beta = Ok (x, q) /\
  forall k, 0 <= k < K -> pz fz q k = fdiv (fz 0) (fz 0).
Proof.
  intros HK. assert (D : data (@plsi_new F) []).
  { split; [split; [constructor|reflexivity]|]. split; [split; [constructor|reflexivity]|]. split; [constructor|]. split; [reflexivity|]. intros i u []. }
  destruct (C88_start fadd fmul fdiv fpow fopp flog fexp fz gtb leb rnd plsi_new [] K D eq_refl eq_refl eq_refl ltac:(lia)) as (p & E & _ & D' & Sh & _).
  destruct (C88_step fadd fmul fdiv fpow fopp flog fexp fz gtb leb p [] K beta D' Sh) as (q & E2 & EM & _); [split; [lia|cbn; lia]|].
  exists p, (fz 0), q. split; auto. split; [exact E2|]. intros k Hk. destruct Sh as (S1 & _). destruct (EM k) as (Q & _); [lia|]. exact Q.
Qed.
End History.

(** the calls below use integers as scalars *)
Definition zstart := startLearning Z.add Z.div (fun x => x) (fun n => Z.of_nat n + 5).
Definition zstep := step Z.add Z.mul Z.div (fun x _ => x) (fun x => x) (fun x => x).
(** ** Finding: startLearning called a second time appends to p(z) only, so the next step reads and writes the other vectors past their end *)
Theorem C88_restart_finding : (let! p := load [(7, [1; 2])] in let! p := zstart p 2 in let! p := zstart p 2 in zstep p 1) = UB /\
  match (let! p := load [(7, [1; 2])] in let! p := zstart p 2 in zstep p 1) with Ok _ => True | _ => False end.
Proof. split; [reflexivity|]. vm_compute. exact I. Qed.
(** ** Finding: a user (or item) added after startLearning makes the next step write past the end of the learned vectors *)
Theorem C88_late_finding : (let! p := load [(7, [1; 2])] in let! p := zstart p 2 in let (_, p) := get_user_id p 3 in zstep p 1) = UB /\
  (let! p := load [(7, [1; 2])] in let! p := zstart p 2 in let! p := observe p (8, [1]) in zstep p 1) = UB.
Proof. split; reflexivity. Qed.
(** ** Finding: an item with a second data line throws if one of its users is not newer than those of the first *)
Theorem C88_repeat_finding : @load Z [(7, [1; 2]); (7, [2])] = Exn /\ (exists p, @load Z [(7, [1; 2]); (7, [3])] = Ok p).
Proof. split; [reflexivity|]. eexists. reflexivity. Qed.

(** non-vacuity: a session meeting the hypotheses of C88_history *)
Example C88_history_example :
  let lines := [(7, [1; 2]); (9, []); (8, [2; 5; 2])] in let ops := [Step 1; Search 5 2; Similar 8 JOINT 3; Similar 7 CONDITIONAL 2; Similar 7 POSTERIOR 2; Perplexity; Step 1] in
  NoDup (map fst (used lines)) /\ zlen (concat (map snd lines)) < 2 ^ 30 - 1 /\ Forall (about lines) ops /\ seen_users lines = [1; 2; 5] /\ seen_items lines = [7; 8].
Proof.
  cbn zeta. split; [|split; [|split; [|split; reflexivity]]].
  - cbn. repeat constructor; cbn; intuition congruence.
  - cbn. lia.
  - repeat constructor; cbn; auto; lia.
Qed.
Example C88_load_example : exists p, @load Z [(7, [1; 2]); (9, []); (8, [2; 5; 2])] = Ok p /\ matrix p = [SparseModel.mk_sv (SparseModel.Plain [0; 1]) [true; true]; SparseModel.mk_sv (SparseModel.Plain [1; 2]) [true; true]].
Proof. eexists. split; reflexivity. Qed.

Print Assumptions C88_load. Print Assumptions C88_user_id. Print Assumptions C88_item_id. Print Assumptions C88_history. Print Assumptions C88_step. Print Assumptions C88_start. Print Assumptions C88_search. Print Assumptions C88_similar. Print Assumptions C88_perplexity.
Print Assumptions C88_unknown_finding. Print Assumptions C88_no_data_finding. Print Assumptions C88_restart_finding. Print Assumptions C88_late_finding. Print Assumptions C88_repeat_finding.
