(** C73: a mapped file: the whole file, and no descriptor, handle or mapping is lost or given back twice. *)
Require Import Verif.Common Verif.MmapModel.

(** ** specification *)
(** what an object has while it lives *)
Definition owned_map (bits : Z) (m : mm) : list (Z * Z) := if map_ m =? MAP_FAILED then [] else [(map_ m, size_ m mod 2 ^ bits)].
Definition wowned_map (m : wmm) : list (Z * Z) := if w_map m =? 0 then [] else [(w_map m, w_size m)].
Definition wowned_fd (m : wmm) : list Z := (if w_hMap m =? 0 then [] else [w_hMap m]) ++ (if w_hFile m =? INVALID then [] else [w_hFile m]).
(** the system hands out descriptors, handles and addresses that are not in use, and not the values that mean failure *)
Definition fresh_fd (p : proc) (h : Z) : Prop := ~ In h (r_fd p) /\ h <> 0 /\ h <> -1.
Definition fresh_map (p : proc) (a : Z) : Prop := ~ In a (map fst (r_map p)) /\ a <> 0 /\ a <> -1.
Definition sane (p : proc) (k : kernel) : Prop :=
  (forall fd, k_open k = Some fd -> ~ In fd (r_fd p)) /\ (forall a, k_map k = Some a -> fresh_map p a).
Definition wsane (p : proc) (k : wkernel) : Prop :=
  (forall h, wk_file k = Some h -> fresh_fd p h) /\
  (forall h, wk_hmap k = Some h -> fresh_fd p h /\ wk_file k <> Some h) /\ (forall a, wk_view k = Some a -> fresh_map p a).
(** objects are made under new names and destroyed once; the system behaves as above *)
Section Sane.
Variables (K M : Type) (ok : proc -> K -> Prop) (make : proc -> K -> res (option M * proc)) (del : proc -> M -> res proc).
Fixpoint msane (p : proc) (objs : list (Z * M)) (l : list (mop K)) : Prop :=
  match l with
  | [] => True
  | MNew o k :: r => ok p k /\ ~ In o (map fst objs) /\
      match make p k with Ok (m, p) => msane p (match m with Some m => (o, m) :: objs | None => objs end) r | _ => True end
  | MDel o :: r =>
      match find (fun x => fst x =? o) objs with
      | Some (_, m) => match del p m with Ok p => msane p (filter (fun x => negb (fst x =? o)) objs) r | _ => True end
      | None => False
      end
  end.
End Sane.
Arguments msane {K M} ok make del p objs l.

(** ** lemmas *)
Lemma has_in k l : has k l = true <-> In k l.
Proof. unfold has. rewrite existsb_exists. split; [intros (x & H & E); apply Z.eqb_eq in E; congruence|intros H; exists k; split; auto; apply Z.eqb_refl]. Qed.
Lemma same_eq x y : same x y = true <-> x = y.
Proof. destruct x as [a b], y as [c d]. unfold same. cbn [fst snd]. rewrite andb_true_iff, !Z.eqb_eq. split; [intros [-> ->]; auto|intros H; injection H; auto]. Qed.
Lemma remove_mid a x b : NoDup (a ++ x :: b) -> remove Z.eq_dec x (a ++ x :: b) = a ++ b.
Proof.
  intros H. apply NoDup_remove_2 in H. rewrite remove_app. cbn [remove]. destruct (Z.eq_dec x x); [|congruence].
  rewrite !notin_remove; auto; intros Hx; apply H; apply in_or_app; auto.
Qed.
Lemma filter_mid (a : list (Z * Z)) x b : NoDup (map fst (a ++ x :: b)) -> filter (fun y => negb (same x y)) (a ++ x :: b) = a ++ b.
Proof.
  intros H. rewrite map_app in H. cbn [map] in H. apply NoDup_remove_2 in H. rewrite filter_app. cbn [filter].
  assert (same x x = true) by (apply same_eq; auto). rewrite H0. cbn [negb].
  assert (Hf : forall l, (forall y, In y l -> y <> x) -> filter (fun y => negb (same x y)) l = l).
  { induction l as [|y l IH]; intros Hl; cbn [filter]; auto. destruct (same x y) eqn:E.
    - apply same_eq in E. contradiction (Hl y (or_introl eq_refl)). auto.
    - cbn [negb]. f_equal. apply IH. intros z Hz. apply Hl. now right. }
  rewrite !Hf; auto; intros y Hy ->; apply H; apply in_or_app; [right|left]; apply in_map; auto.
Qed.
Lemma close_mid p a fd b : r_fd p = a ++ fd :: b -> NoDup (r_fd p) -> close p fd = Ok (mk_proc (a ++ b) (r_map p)).
Proof.
  intros E H. unfold close. assert (has fd (r_fd p) = true) by (apply has_in; rewrite E; apply in_or_app; right; left; auto).
  rewrite H0, E, remove_mid by (rewrite <- E; auto). reflexivity.
Qed.
Lemma close_opened p fd : ~ In fd (r_fd p) -> close (opened p fd) fd = Ok p.
Proof.
  intros H. unfold close. cbn [opened r_fd r_map has existsb]. rewrite Z.eqb_refl. cbn [orb remove]. destruct (Z.eq_dec fd fd); [|congruence].
  rewrite notin_remove by auto. destruct p. reflexivity.
Qed.
Lemma munmap_mid p a x b : r_map p = a ++ x :: b -> NoDup (map fst (r_map p)) -> munmap p (fst x) (snd x) = Ok (mk_proc (r_fd p) (a ++ b)).
Proof.
  intros E H. unfold munmap. destruct x as [ad len]. cbn [fst snd].
  assert (existsb (same (ad, len)) (r_map p) = true).
  { apply existsb_exists. exists (ad, len). split; [rewrite E; apply in_or_app; right; left; auto|]. apply same_eq. auto. }
  rewrite H0, E, filter_mid by (rewrite <- E; auto). reflexivity.
Qed.

Section Generic.
Variables (K M : Type) (ok : proc -> K -> Prop) (make : proc -> K -> res (option M * proc)) (del : proc -> M -> res proc).
Variables (omap : M -> list (Z * Z)) (ofd : M -> list Z).
Hypothesis make_ok : forall p k, ok p k -> exists m p', make p k = Ok (m, p') /\
  r_fd p' = (match m with Some m => ofd m | None => [] end) ++ r_fd p /\ r_map p' = (match m with Some m => omap m | None => [] end) ++ r_map p /\
  (NoDup (r_fd p) -> NoDup (r_fd p')) /\ (NoDup (map fst (r_map p)) -> NoDup (map fst (r_map p'))).
Hypothesis del_ok : forall p m a b c d, NoDup (r_fd p) -> NoDup (map fst (r_map p)) -> r_fd p = a ++ ofd m ++ b -> r_map p = c ++ omap m ++ d ->
  del p m = Ok (mk_proc (a ++ b) (c ++ d)).
Lemma NoDup_cut {A} (a b c : list A) : NoDup (a ++ b ++ c) -> NoDup (a ++ c).
Proof.
  induction b as [|x b IH]; intros H; auto. apply IH. cbn in H. apply NoDup_remove_1 in H. exact H.
Qed.
Lemma history_ok fd0 map0 l : forall p objs, NoDup (r_fd p) -> NoDup (map fst (r_map p)) -> NoDup (map fst objs) ->
  r_fd p = flat_map (fun x => ofd (snd x)) objs ++ fd0 -> r_map p = flat_map (fun x => omap (snd x)) objs ++ map0 ->
  msane ok make del p objs l ->
  exists p' objs', mrun make del p objs l = Ok (p', objs') /\
    r_fd p' = flat_map (fun x => ofd (snd x)) objs' ++ fd0 /\ r_map p' = flat_map (fun x => omap (snd x)) objs' ++ map0.
Proof.
  induction l as [|[o k|o] l IH]; intros p objs H1 H2 H3 E1 E2 S.
  - exists p, objs. auto.
  - cbn [msane] in S. destruct S as (Hok & Hnew & S). destruct (make_ok p k Hok) as (m & p' & Em & F1 & F2 & F3 & F4).
    cbn [mrun]. rewrite Em in *. cbn [bind]. destruct m as [m|].
    + apply IH; auto.
      * cbn [map fst]. constructor; auto.
      * cbn [flat_map snd]. rewrite F1, E1, app_assoc. reflexivity.
      * cbn [flat_map snd]. rewrite F2, E2, app_assoc. reflexivity.
    + cbn [app] in F1, F2. apply IH; auto; congruence.
  - cbn [msane] in S. cbn [mrun]. destruct (find (fun x => fst x =? o) objs) as [[o' m]|] eqn:Ef; [|contradiction].
    pose proof (find_some _ _ Ef) as [Hin Ho]. cbn [fst] in Ho. apply Z.eqb_eq in Ho. subst o'.
    apply in_split in Hin. destruct Hin as (a & b & ->).
    assert (Hflt : filter (fun x : Z * M => negb (fst x =? o)) (a ++ (o, m) :: b) = a ++ b).
    { rewrite map_app in H3. cbn [map fst] in H3. apply NoDup_remove_2 in H3. rewrite filter_app. cbn [filter fst]. rewrite Z.eqb_refl. cbn [negb].
      assert (Hf : forall l0 : list (Z * M), (forall y, In y l0 -> fst y <> o) -> filter (fun x => negb (fst x =? o)) l0 = l0).
      { induction l0 as [|y l0 IHl]; intros Hl; cbn [filter]; auto. destruct (Z.eqb_spec (fst y) o) as [E|]; [contradiction (Hl y (or_introl eq_refl))|].
        cbn [negb]. f_equal. apply IHl. intros z Hz. apply Hl. now right. }
      rewrite !Hf; auto; intros y Hy E; apply H3; apply in_or_app; [right|left]; rewrite <- E; apply in_map; auto. }
    rewrite flat_map_app in E1, E2. cbn [flat_map snd] in E1, E2. rewrite <- !app_assoc in E1, E2.
    pose proof (del_ok p m _ _ _ _ H1 H2 E1 E2) as Ed. rewrite Ed in *. cbn [bind]. rewrite Hflt in *. apply IH; auto; cbn [r_fd r_map].
    + rewrite E1 in H1. apply NoDup_cut in H1. exact H1.
    + rewrite E2, !map_app in H2. apply NoDup_cut in H2. rewrite !map_app. exact H2.
    + rewrite map_app in *. cbn [map] in H3. apply NoDup_remove_1 in H3. exact H3.
    + rewrite flat_map_app, <- app_assoc. reflexivity.
    + rewrite flat_map_app, <- app_assoc. reflexivity.
Qed.
End Generic.

Lemma Mmap_ok bits p k : sane p k -> exists m p', Mmap bits p k = Ok (m, p') /\
  r_fd p' = [] ++ r_fd p /\ r_map p' = (match m with Some m => owned_map bits m | None => [] end) ++ r_map p /\
  (NoDup (r_fd p) -> NoDup (r_fd p')) /\ (NoDup (map fst (r_map p)) -> NoDup (map fst (r_map p'))).
Proof.
  intros [S1 S2]. unfold Mmap. destruct (k_open k) as [fd|]; [|exists None, p; auto]. specialize (S1 fd eq_refl).
  destruct (k_size k) as [sz|].
  2:{ rewrite close_opened by auto. cbn [bind]. exists None, p. auto. }
  destruct (Z.eqb_spec sz 0) as [->|Hz].
  { rewrite close_opened by auto. cbn [bind]. eexists; eexists. split; [reflexivity|]. auto. }
  destruct (k_map k) as [a|].
  2:{ rewrite close_opened by auto. cbn [bind]. exists None, p. auto. }
  destruct (S2 a eq_refl) as (Hn & _ & Hm).
  change (mapped (opened p fd) a (sz mod 2 ^ bits)) with (opened (mapped p a (sz mod 2 ^ bits)) fd). rewrite close_opened by auto. cbn [bind].
  eexists; eexists. split; [reflexivity|]. cbn [mapped r_fd r_map]. unfold owned_map. cbn [map_ size_].
  destruct (Z.eqb_spec a MAP_FAILED); [contradiction|]. split; [reflexivity|]. split; [reflexivity|]. split; auto. cbn [map fst]. intros. constructor; auto.
Qed.
Lemma Mmap_del_ok bits p m a b c d : NoDup (r_fd p) -> NoDup (map fst (r_map p)) -> r_fd p = a ++ [] ++ b -> r_map p = c ++ owned_map bits m ++ d ->
  Mmap_del bits p m = Ok (mk_proc (a ++ b) (c ++ d)).
Proof.
  intros _ H2 E1 E2. unfold Mmap_del, owned_map in *. destruct (map_ m =? MAP_FAILED); cbn [negb].
  - cbn [app] in *. rewrite <- E1, <- E2. destruct p. reflexivity.
  - cbn [app] in *. rewrite <- E1. apply (munmap_mid p c (map_ m, size_ m mod 2 ^ bits) d E2 H2).
Qed.
Lemma WMmap_ok p k : wsane p k -> exists m p', WMmap p k = Ok (m, p') /\
  r_fd p' = (match m with Some m => wowned_fd m | None => [] end) ++ r_fd p /\ r_map p' = (match m with Some m => wowned_map m | None => [] end) ++ r_map p /\
  (NoDup (r_fd p) -> NoDup (r_fd p')) /\ (NoDup (map fst (r_map p)) -> NoDup (map fst (r_map p'))).
Proof.
  intros (S1 & S2 & S3). unfold WMmap. destruct (wk_file k) as [h|]; [|exists None, p; auto]. destruct (S1 h eq_refl) as (Hn & Hh0 & Hh1).
  change (0 =? 0) with true. cbn [negb bind].
  assert (Hi : negb (h =? INVALID) = true) by (destruct (Z.eqb_spec h INVALID); [contradiction|reflexivity]). rewrite Hi.
  destruct (wk_size k) as [sz|].
  2:{ rewrite close_opened by auto. cbn [bind]. exists None, p. auto. }
  destruct (Z.eqb_spec sz 0) as [->|Hz].
  { rewrite close_opened by auto. cbn [bind]. eexists; eexists. split; [reflexivity|]. auto. }
  destruct (wk_hmap k) as [hm|].
  2:{ rewrite close_opened by auto. cbn [bind]. exists None, p. auto. }
  destruct (S2 hm eq_refl) as ((Hmn & Hm0 & Hm1) & Hne). assert (Hmi : negb (hm =? 0) = true) by (destruct (Z.eqb_spec hm 0); [contradiction|reflexivity]). rewrite Hmi.
  assert (Hmh : ~ In hm (r_fd (opened p h))) by (cbn [opened r_fd]; intros [E|E]; [congruence|contradiction]).
  destruct (wk_view k) as [a|].
  2:{ rewrite close_opened by auto. cbn [bind]. rewrite close_opened by auto. cbn [bind]. exists None, p. auto. }
  destruct (S3 a eq_refl) as (Han & Ha & _).
  eexists; eexists. split; [reflexivity|]. unfold wowned_fd, wowned_map. cbn [w_map w_hFile w_hMap w_size].
  destruct (Z.eqb_spec hm 0); [contradiction|]. destruct (Z.eqb_spec h INVALID); [contradiction|]. destruct (Z.eqb_spec a 0); [contradiction|].
  cbn [mapped opened r_fd r_map app map fst]. split; [reflexivity|]. split; [reflexivity|]. split; intros; constructor; auto. constructor; auto.
Qed.
Lemma WMmap_del_ok p m a b c d : NoDup (r_fd p) -> NoDup (map fst (r_map p)) -> r_fd p = a ++ wowned_fd m ++ b -> r_map p = c ++ wowned_map m ++ d ->
  WMmap_del p m = Ok (mk_proc (a ++ b) (c ++ d)).
Proof.
  intros H1 H2 E1 E2. unfold WMmap_del, wowned_fd, wowned_map in *.
  assert (Em : (if negb (w_map m =? 0) then munmap p (w_map m) (w_size m) else Ok p) = Ok (mk_proc (r_fd p) (c ++ d))).
  { destruct (w_map m =? 0); cbn [negb].
    - cbn [app] in E2. rewrite <- E2. destruct p. reflexivity.
    - apply (munmap_mid p c (w_map m, w_size m) d E2 H2). }
  rewrite Em. cbn [bind]. rewrite <- app_assoc in E1.
  destruct (w_hMap m =? 0); cbn [negb app bind] in *.
  - destruct (w_hFile m =? INVALID); cbn [negb app] in *; [rewrite E1; reflexivity|].
    rewrite (close_mid (mk_proc (r_fd p) (c ++ d)) a (w_hFile m) b); auto.
  - rewrite (close_mid (mk_proc (r_fd p) (c ++ d)) a (w_hMap m) ((if w_hFile m =? INVALID then [] else [w_hFile m]) ++ b)); auto. cbn [bind r_map].
    rewrite E1 in H1. apply NoDup_remove_1 in H1.
    destruct (w_hFile m =? INVALID); cbn [negb app] in *; auto. rewrite (close_mid _ a (w_hFile m) b); auto.
Qed.

(** ** C73 *)
(** C73, POSIX: after any history of objects made (or not) and destroyed, the process has the descriptors it had before, and besides the
    mappings it had before exactly those of the objects that live *)
Theorem C73_posix : forall bits p0 l, NoDup (r_fd p0) -> NoDup (map fst (r_map p0)) -> msane sane (Mmap bits) (Mmap_del bits) p0 [] l ->
  exists p objs, mrun (Mmap bits) (Mmap_del bits) p0 [] l = Ok (p, objs) /\ r_fd p = r_fd p0 /\
    r_map p = flat_map (fun x => owned_map bits (snd x)) objs ++ r_map p0.
Proof.
  intros bits p0 l H1 H2 S.
  destruct (history_ok kernel mm sane (Mmap bits) (Mmap_del bits) (owned_map bits) (fun _ => [])
              (fun p k H => match Mmap_ok bits p k H with ex_intro _ m (ex_intro _ p' (conj a (conj b (conj c d)))) =>
                 ex_intro _ m (ex_intro _ p' (conj a (conj (eq_trans b (match m as m0 return ([] ++ r_fd p = match m0 with Some _ => [] | None => [] end ++ r_fd p) with Some _ => eq_refl | None => eq_refl end)) (conj c d)))) end)
              (Mmap_del_ok bits) (r_fd p0) (r_map p0) l p0 [] H1 H2 (NoDup_nil _) eq_refl eq_refl S) as (p & objs & E & F1 & F2).
  exists p, objs. split; auto. split; auto. rewrite F1.
  assert (Hn : forall x : list (Z * mm), flat_map (fun _ => @nil Z) x = []) by (induction x; auto). rewrite Hn. reflexivity.
Qed.
(** C73, Windows: the same, and besides the handles it had before exactly the two of each object that lives (none if its file is empty) *)
Theorem C73_windows : forall p0 l, NoDup (r_fd p0) -> NoDup (map fst (r_map p0)) -> msane wsane WMmap WMmap_del p0 [] l ->
  exists p objs, mrun WMmap WMmap_del p0 [] l = Ok (p, objs) /\
    r_fd p = flat_map (fun x => wowned_fd (snd x)) objs ++ r_fd p0 /\ r_map p = flat_map (fun x => wowned_map (snd x)) objs ++ r_map p0.
Proof.
  intros p0 l H1 H2 S. eapply (history_ok wkernel wmm wsane WMmap WMmap_del wowned_map wowned_fd WMmap_ok WMmap_del_ok); eauto. constructor.
Qed.
(** C73: the constructor throws exactly if a call fails that it needs; then the process is as before.  Otherwise size() is the size of
    the file and get() is the address of a mapping of the whole file *)
Theorem C73_whole : forall bits p k m p', sane p k -> Mmap bits p k = Ok (m, p') ->
  match m with
  | None => (k_open k = None \/ k_size k = None \/ k_size k <> Some 0 /\ k_map k = None) /\ p' = p
  | Some m => k_open k <> None /\ k_size k = Some (size_ m) /\
              (size_ m <> 0 -> k_map k = Some (map_ m) /\ (0 <= size_ m < 2 ^ bits -> In (map_ m, size_ m) (r_map p')))
  end.
Proof.
  intros bits p k m p' [S1 S2] E. unfold Mmap in E. destruct (k_open k) as [fd|]; [|injection E as <- <-; auto]. specialize (S1 fd eq_refl).
  destruct (k_size k) as [sz|].
  2:{ rewrite close_opened in E by auto. cbn [bind] in E. injection E as <- <-. auto. }
  destruct (sz =? 0) eqn:Hz; [apply Z.eqb_eq in Hz; subst sz|apply Z.eqb_neq in Hz].
  { rewrite close_opened in E by auto. cbn [bind] in E. injection E as <- <-. cbn [size_ map_]. split; [discriminate|]. split; auto. congruence. }
  destruct (k_map k) as [a|].
  2:{ rewrite close_opened in E by auto. cbn [bind] in E. injection E as <- <-. split; auto. right. right. split; [congruence|auto]. }
  change (mapped (opened p fd) a (sz mod 2 ^ bits)) with (opened (mapped p a (sz mod 2 ^ bits)) fd) in E. rewrite close_opened in E by auto. cbn [bind] in E.
  injection E as <- <-. cbn [size_ map_]. split; [discriminate|]. split; auto. intros _. split; auto. intros Hb. cbn [mapped r_map]. left. rewrite Z.mod_small by auto. reflexivity.
Qed.
(** a process with descriptors and a mapping of its own; two objects, one for an empty file, one failing at mmap, one destroyed *)
Definition p1 := mk_proc [2;1;0] [(4096, 10)].
Definition demo := [MNew 1 (mk_kernel (Some 3) (Some 100) (Some 8192)); MNew 2 (mk_kernel (Some 3) (Some 0) None); MNew 3 (mk_kernel (Some 3) (Some 7) None);
                    MNew 4 (mk_kernel (Some 3) (Some 50) (Some 12288)); MDel 1; MDel 2].
Definition wdemo := [MNew 1 (mk_wkernel (Some 3) (Some 100) (Some 4) (Some 8192)); MNew 2 (mk_wkernel (Some 5) (Some 0) None None);
                     MNew 3 (mk_wkernel (Some 5) (Some 7) (Some 6) None); MNew 4 (mk_wkernel (Some 6) (Some 50) (Some 5) (Some 12288)); MDel 1; MDel 2].
Ltac newly := unfold sane, wsane, fresh_fd, fresh_map; cbn; repeat split; intros; cbn in *;
  repeat match goal with H : Some _ = Some _ |- _ => injection H as <- end; try discriminate; try lia; intuition (try discriminate; try lia).
Example C73_ex : msane sane (Mmap 64) (Mmap_del 64) p1 [] demo /\ msane wsane WMmap WMmap_del p1 [] wdemo /\
  (exists objs, mrun (Mmap 64) (Mmap_del 64) p1 [] demo = Ok (mk_proc [2;1;0] [(12288, 50); (4096, 10)], objs)) /\
  (exists objs, mrun WMmap WMmap_del p1 [] wdemo = Ok (mk_proc [5;6;2;1;0] [(12288, 50); (4096, 10)], objs)).
Proof.
  split; [|split; [|split; eexists; vm_compute; reflexivity]].
  - cbn. newly.
  - cbn. newly.
Qed.

(** ** Finding: for an empty file get() is the address -1 (MAP_FAILED) on POSIX, not a null pointer as on Windows *)
Theorem C73_empty_finding : forall bits p fd h, ~ In fd (r_fd p) -> ~ In h (r_fd p) ->
  Mmap bits p (mk_kernel (Some fd) (Some 0) None) = Ok (Some (mk_mm (-1) 0), p) /\
  WMmap p (mk_wkernel (Some h) (Some 0) None None) = Ok (Some (mk_wmm 0 (-1) 0 0), p).
Proof.
  intros bits p fd h H1 H2. unfold Mmap, WMmap. cbn [k_open k_size wk_file wk_size]. change (0 =? 0) with true. cbv iota zeta.
  rewrite !close_opened by auto. split; reflexivity.
Qed.
(** ** Finding: where size_t has 32 bits, a file of 4 GiB + 4096 bytes is mapped for 4096 bytes only, while size() is the size of the file *)
Theorem C73_size32_finding : exists m p, Mmap 32 p1 (mk_kernel (Some 3) (Some 4294971392) (Some 8192)) = Ok (Some m, p) /\
  size_ m = 4294971392 /\ r_map p = [(8192, 4096); (4096, 10)].
Proof. do 2 eexists. split; [reflexivity|]. split; reflexivity. Qed.

Print Assumptions C73_posix.
Print Assumptions C73_windows.
Print Assumptions C73_whole.
Print Assumptions C73_empty_finding.
Print Assumptions C73_size32_finding.
