(** Property C88 (nlp/plsi.hpp): what the class computes, for any arithmetic of double. *)
From Coq Require Import Sorted.
Require Import Verif.Common Verif.PlsiModel.
Require Verif.SparseModel Verif.SparseProps Verif.TopScoreModel Verif.TopScoreProps.

(** ** Specification *)
(** the entries of a vector and of a vector of vectors *)
Definition el {F} (d : F) (l : list F) (k : Z) : F := nth (Z.to_nat k) l d.
Definition el2 {F} (d : F) (m : list (list F)) (k i : Z) : F := el d (nth (Z.to_nat k) m []) i.
(** the keys in the order of their first appearance *)
Fixpoint first_seen (seen : list Z) (l : list Z) : list Z :=
  match l with [] => seen | x :: l => first_seen (if existsb (Z.eqb x) seen then seen else seen ++ [x]) l end.
(** the place of a key in that order *)
Fixpoint index_of (l : list Z) (x : Z) : option Z :=
  match l with [] => None | a :: l => if a =? x then Some 0 else option_map Z.succ (index_of l x) end.
(** one data line names an item and its users; lines without users are not data *)
Definition used (lines : list (Z * list Z)) : list (Z * list Z) := filter (fun l => match snd l with [] => false | _ => true end) lines.
Definition seen_items (lines : list (Z * list Z)) : list Z := first_seen [] (map fst (used lines)).
Definition seen_users (lines : list (Z * list Z)) : list Z := first_seen [] (concat (map snd (used lines))).
(** the observations: (place of the item, place of the user), from the user places ll of each item *)
Fixpoint obs_from (i : Z) (ll : list (list Z)) : list (Z * Z) :=
  match ll with [] => [] | l :: ll => map (fun u => (i, u)) l ++ obs_from (i + 1) ll end.
(** the user places of each item, strictly increasing *)
Definition user_places (lines : list (Z * list Z)) (ll : list (list Z)) : Prop :=
  zlen ll = zlen (seen_items lines) /\ Forall (StronglySorted Z.lt) ll /\
  forall i u, In (i, u) (obs_from 0 ll) <->
    exists item user us, In (item, us) lines /\ In user us /\ index_of (seen_items lines) item = Some i /\ index_of (seen_users lines) user = Some u.

(** ** Lists *)
Lemma el_ok {F} (d : F) l k : 0 <= k < zlen l -> rd l k = Ok (el d l k).
Proof.
  intros H. unfold rd, el. destruct (Z.ltb_spec k 0); [lia|]. destruct (nth_error l (Z.to_nat k)) eqn:E.
  - now rewrite (nth_error_nth _ _ d E).
  - apply nth_error_None in E. unfold zlen in H. lia.
Qed.
Lemma rd_range {A} (l : list A) k : 0 <= k < zlen l -> exists x, rd l k = Ok x /\ In x l.
Proof.
  intros H. unfold rd. destruct (Z.ltb_spec k 0); [lia|]. destruct (nth_error l (Z.to_nat k)) eqn:E.
  - exists a. split; auto. eapply nth_error_In; eauto.
  - apply nth_error_None in E. unfold zlen in H. lia.
Qed.
Lemma el2_ok {F} (d : F) m n k i : 0 <= k < zlen m -> Forall (fun r => zlen r = n) m -> 0 <= i < n -> rd2 m k i = Ok (el2 d m k i).
Proof.
  intros H A I. unfold rd2, el2. rewrite (el_ok []) by auto. cbn [bind]. unfold el at 1. apply el_ok.
  rewrite Forall_forall in A. rewrite A; auto. apply nth_In. unfold zlen in H. lia.
Qed.
Lemma wr_el {F} (d : F) l k x : 0 <= k < zlen l -> exists l', wr l k x = Ok l' /\ zlen l' = zlen l /\ forall j, 0 <= j -> el d l' j = if j =? k then x else el d l j.
Proof.
  intros H. unfold wr. destruct (Z.ltb_spec k 0); [lia|]. unfold zlen in *. destruct (Z.leb_spec (Z.of_nat (length l)) k); [lia|]. cbn [orb].
  eexists. split; [reflexivity|]. split; [now rewrite upd_length|]. intros j J. unfold el.
  destruct (Z.eqb_spec j k) as [->|N].
  - assert (G : (Z.to_nat k < length l)%nat) by lia. revert G. generalize (Z.to_nat k). clear. induction l as [|a l IH]; intros [|n] G; cbn in *; try lia; auto. apply IH; lia.
  - assert (G : Z.to_nat j <> Z.to_nat k) by lia. revert G. generalize (Z.to_nat k), (Z.to_nat j). clear. induction l as [|a l IH]; intros [|n] [|m] G; cbn in *; try lia; auto.
Qed.
Lemma Forall_upd {A} (P : A -> Prop) (l : list A) n x : Forall P l -> P x -> Forall P (upd l n x).
Proof. intros H Hx. revert n. induction H; intros [|n]; cbn; constructor; auto. Qed.
Lemma wr2_el {F} (d : F) m n k i x : 0 <= k < zlen m -> Forall (fun r => zlen r = n) m -> 0 <= i < n ->
  exists m', wr2 m k i x = Ok m' /\ zlen m' = zlen m /\ Forall (fun r => zlen r = n) m' /\
    forall j l, 0 <= j -> 0 <= l -> el2 d m' j l = if (j =? k) && (l =? i) then x else el2 d m j l.
Proof.
  intros H A I. unfold wr2. rewrite (el_ok []) by auto. cbn [bind]. set (r := el [] m k).
  assert (R : zlen r = n). { rewrite Forall_forall in A. apply A. unfold r, el. apply nth_In. unfold zlen in H. lia. }
  destruct (wr_el d r i x) as (r' & -> & L & E); [lia|]. cbn [bind].
  assert (W : wr m k r' = Ok (upd m (Z.to_nat k) r')). { unfold wr. destruct (Z.ltb_spec k 0); [lia|]. unfold zlen in H. destruct (Z.leb_spec (Z.of_nat (length m)) k); [lia|]. reflexivity. }
  destruct (wr_el [] m k r') as (m' & W' & L' & E'); [lia|]. rewrite W in W'. injection W' as <-.
  exists (upd m (Z.to_nat k) r'). split; auto. split; auto. split; [apply Forall_upd; auto; congruence|].
  intros j l Hj Hl. unfold el2. pose proof (E' j Hj) as Q. unfold el in Q. rewrite Q. destruct (Z.eqb_spec j k) as [->|N]; cbn [andb]; auto.
Qed.
Lemma upto_snoc n : 0 <= n -> upto (n + 1) = upto n ++ [n].
Proof.
  intros H. unfold upto. replace (Z.to_nat (n + 1)) with (Z.to_nat n + 1)%nat by lia. rewrite seq_app, map_app. cbn. do 2 f_equal. lia.
Qed.
Lemma in_upto n k : In k (upto n) <-> 0 <= k < n.
Proof.
  unfold upto. rewrite in_map_iff. split.
  - intros (x & <- & H). apply in_seq in H. lia.
  - intros H. exists (Z.to_nat k). split; [lia|]. apply in_seq. lia.
Qed.
Lemma NoDup_upto n : NoDup (upto n).
Proof. unfold upto. apply FinFun.Injective_map_NoDup; [intros a b H; lia|apply seq_NoDup]. Qed.
Lemma upto_len n : 0 <= n -> zlen (upto n) = n.
Proof. intros H. unfold zlen, upto. rewrite map_length, seq_length. lia. Qed.

(** loops *)
Lemma foldM_app {S X} (f : S -> X -> res S) l1 : forall l2 s, foldM f (l1 ++ l2) s = let! s := foldM f l1 s in foldM f l2 s.
Proof. induction l1 as [|x l1 IH]; intros l2 s; cbn [app foldM bind]; auto. destruct (f s x); cbn [bind]; auto. Qed.
Lemma loop {S} (P : Z -> S -> Prop) (f : S -> Z -> res S) n s : 0 <= n -> P 0 s ->
  (forall j s, 0 <= j < n -> P j s -> exists s', f s j = Ok s' /\ P (j + 1) s') -> exists s', foldM f (upto n) s = Ok s' /\ P n s'.
Proof.
  intros Hn H0 Hs. assert (G : forall m, (Z.of_nat m <= n) -> exists s', foldM f (upto (Z.of_nat m)) s = Ok s' /\ P (Z.of_nat m) s').
  { induction m as [|m IH]; intros L; [exists s; split; [reflexivity|exact H0]|]. destruct IH as (s1 & E & Q); [lia|].
    destruct (Hs (Z.of_nat m) s1) as (s2 & E2 & Q2); [lia|auto|]. exists s2. replace (Z.of_nat (Datatypes.S m)) with (Z.of_nat m + 1) by lia. split; auto.
    rewrite upto_snoc by lia. rewrite foldM_app, E. cbn [bind foldM]. rewrite E2. reflexivity. }
  destruct (G (Z.to_nat n)) as (s' & E & Q); [lia|]. rewrite Z2Nat.id in * by lia. eauto.
Qed.
Lemma loop_list {S X} (P : list X -> S -> Prop) (f : S -> X -> res S) l : forall done s, P done s ->
  (forall dn x rest s, done ++ l = dn ++ x :: rest -> P dn s -> exists s', f s x = Ok s' /\ P (dn ++ [x]) s') -> exists s', foldM f l s = Ok s' /\ P (done ++ l) s'.
Proof.
  induction l as [|x l IH]; intros done s H0 Hs; cbn [foldM]; [rewrite app_nil_r; eauto|].
  destruct (Hs done x l s) as (s1 & -> & Q); [auto|auto|]. cbn [bind]. destruct (IH (done ++ [x]) s1 Q) as (s2 & E & Q2).
  - intros d y rest s' E'. apply (Hs d y rest). rewrite <- E', <- app_assoc. auto.
  - exists s2. split; auto. rewrite <- app_assoc in Q2. auto.
Qed.

Definition indexed (m : list (Z * Z)) (l : list Z) : Prop := NoDup l /\ m = combine l (upto (zlen l)).
Lemma indexed_len m l : indexed m l -> zlen m = zlen l.
Proof. intros (_ & ->). unfold zlen at 1. rewrite combine_length. pose proof (upto_len (zlen l) (zlen_nonneg l)) as U. unfold zlen in *. lia. Qed.
Lemma int_of_id x : 0 <= x < 2 ^ 31 -> int_of x = x.
Proof. intros H. unfold int_of. rewrite Z.mod_small; lia. Qed.

(** ** Lookup *)
Lemma index_of_nth l : forall x i, NoDup l -> (index_of l x = Some i <-> 0 <= i /\ nth_error l (Z.to_nat i) = Some x).
Proof.
  induction l as [|a l IH]; intros x i ND; cbn [index_of].
  - split; [discriminate|]. intros (_ & H). destruct (Z.to_nat i); discriminate.
  - inversion ND as [|? ? NI ND']; subst. destruct (Z.eqb_spec a x) as [->|N].
    + split.
      * intros H. injection H as <-. split; [lia|auto].
      * intros (Hi & H). destruct (Z.to_nat i) as [|n] eqn:E; [f_equal; lia|]. cbn in H. apply nth_error_In in H. contradiction.
    + destruct (index_of l x) as [j|] eqn:E; cbn [option_map].
      * apply IH in E; auto. destruct E as (Hj & E). split.
        -- intros H. injection H as <-. split; [lia|]. replace (Z.to_nat (Z.succ j)) with (Datatypes.S (Z.to_nat j)) by lia. auto.
        -- intros (Hi & H). destruct (Z.to_nat i) as [|n] eqn:Ei; cbn in H; [congruence|]. assert (Q : index_of l x = Some (Z.of_nat n)) by (apply IH; auto; rewrite Nat2Z.id; split; [lia|auto]).
           assert (Q2 : index_of l x = Some j) by (apply IH; auto). rewrite Q in Q2. injection Q2 as <-. f_equal. lia.
      * split; [discriminate|]. intros (Hi & H). destruct (Z.to_nat i) as [|n] eqn:Ei; cbn in H; [congruence|].
        assert (Q : index_of l x = Some (Z.of_nat n)) by (apply IH; auto; rewrite Nat2Z.id; split; [lia|auto]). congruence.
Qed.
Lemma lookup_index l : forall a x, lookup (combine l (map Z.of_nat (seq a (length l)))) x = option_map (fun i => i + Z.of_nat a) (index_of l x).
Proof.
  induction l as [|y l IH]; intros a x; cbn [length seq map combine lookup index_of]; auto. destruct (Z.eqb_spec y x); [reflexivity|].
  rewrite IH. destruct (index_of l x); cbn [option_map]; auto. f_equal. lia.
Qed.
Lemma lookup_ok m l x : indexed m l -> lookup m x = index_of l x.
Proof.
  intros (_ & ->). unfold upto, zlen. rewrite Nat2Z.id, lookup_index. destruct (index_of l x); cbn [option_map]; auto. f_equal. lia.
Qed.
Lemma index_range l x i : index_of l x = Some i -> 0 <= i < zlen l.
Proof.
  revert i. induction l as [|a l IH]; intros i; cbn [index_of]; [discriminate|]. rewrite zlen_cons. pose proof (zlen_nonneg l). destruct (a =? x); [intros H'; injection H' as <-; lia|].
  destruct (index_of l x) as [j|]; cbn [option_map]; [|discriminate]. intros H'. injection H' as <-. specialize (IH j eq_refl). lia.
Qed.

Lemma foldM_ext {S X} (f g : S -> X -> res S) l : (forall s x, In x l -> f s x = g s x) -> forall s, foldM f l s = foldM g l s.
Proof. intros H. induction l as [|x l IH]; intros s; cbn [foldM]; auto. rewrite H by (left; auto). destruct (g s x); cbn [bind]; auto. apply IH. intros; apply H; right; auto. Qed.

Lemma obs_item_range ll : forall id i u, In (i, u) (obs_from id ll) -> id <= i < id + zlen ll.
Proof.
  induction ll as [|l ll IH]; intros id i u; cbn [obs_from]; [intros []|]. rewrite zlen_cons. pose proof (zlen_nonneg ll). intros I. apply in_app_or in I. destruct I as [I|I].
  - apply in_map_iff in I. destruct I as (x & E & _). injection E as <- <-. lia.
  - apply IH in I. lia.
Qed.


Section Any.
Context {F : Type}.
Variables (fadd fmul fdiv fpow : F -> F -> F) (fopp flog fexp : F -> F) (fz : Z -> F).
Variables (gtb leb : F -> F -> bool).
Variable (rnd : nat -> F).
Let d0 := fz 0.

(** ** Specification, continued *)
(** the sum in the order of the list *)
Definition fsum {X} (f : X -> F) (l : list X) : F := fold_left (fun s x => fadd s (f x)) l d0.
Lemma fsum_snoc {X} (f : X -> F) l x : fsum f (l ++ [x]) = fadd (fsum f l) (f x).
Proof. unfold fsum. now rewrite fold_left_app. Qed.

(** p(z = k), p(user u | z = k), p(item i | z = k) *)
Definition pz (p : @plsi F) (k : Z) : F := el d0 (zv p) k.
Definition pu (p : @plsi F) (k u : Z) : F := el2 d0 (user_z p) k u.
Definition pi (p : @plsi F) (k i : Z) : F := el2 d0 (item_z p) k i.
(** the weight of class k for the observation o = (item, user), tempered by beta, and the sum over the classes *)
Definition weight (p : @plsi F) (beta : F) (o : Z * Z) (k : Z) : F := fpow (fmul (fmul (pz p k) (pu p k (snd o))) (pi p k (fst o))) beta.
Definition total (p : @plsi F) (beta : F) (o : Z * Z) : F := fsum (weight p beta o) (upto (zlen (zv p))).
(** p(z = k | o) *)
Definition post (p : @plsi F) (beta : F) (k : Z) (o : Z * Z) : F := fdiv (weight p beta o k) (total p beta o).
(** the EM update with the observations [obs] *)
Definition em_update (p p' : @plsi F) (beta : F) (obs : list (Z * Z)) : Prop :=
  forall k, 0 <= k < zlen (zv p) ->
    pz p' k = fdiv (fsum (post p beta k) obs) (fz (zlen obs)) /\
    (forall u, 0 <= u < zlen (users p) -> pu p' k u = fdiv (fsum (post p beta k) (filter (fun o => snd o =? u) obs)) (fsum (post p beta k) obs)) /\
    (forall i, 0 <= i < zlen (items p) -> pi p' k i = fdiv (fsum (post p beta k) (filter (fun o => fst o =? i) obs)) (fsum (post p beta k) obs)).

(** ** Invariants *)
Definition rows_are (p : @plsi F) (ll : list (list Z)) : Prop :=
  Forall2 (fun row l => SparseProps.repr row (map (fun k => (k, true)) l) /\ SparseProps.is_packed (SparseModel.tab row) = false) (matrix p) ll.
(** the data part *)
Definition data (p : @plsi F) (ll : list (list Z)) : Prop :=
  indexed (users p) (userlist p) /\ indexed (items p) (itemlist p) /\ rows_are p ll /\ zlen ll = zlen (itemlist p) /\
  (forall i u, In (i, u) (obs_from 0 ll) -> 0 <= u < zlen (userlist p)).
(** the parameter part: K classes, with a row for every user and item *)
Definition shaped (p : @plsi F) (K : Z) : Prop :=
  zlen (zv p) = K /\ zlen (user_z p) = K /\ Forall (fun r => zlen r = zlen (userlist p)) (user_z p) /\
  zlen (item_z p) = K /\ Forall (fun r => zlen r = zlen (itemlist p)) (item_z p).
(** sizes the int and unsigned int counters of the code can count *)
Definition small (K : Z) (ll : list (list Z)) : Prop := 0 <= K < 2 ^ 31 /\ zlen (obs_from 0 ll) < 2 ^ 30 - 1.

(** a loop that adds up *)
Lemma sum_loop (f : Z -> F) (g : Z -> res F) n : 0 <= n -> (forall k, 0 <= k < n -> g k = Ok (f k)) ->
  foldM (fun s k => let! x := g k in Ok (fadd s x)) (upto n) d0 = Ok (fsum f (upto n)).
Proof.
  intros Hn H. destruct (loop (fun j s => s = fsum f (upto j)) (fun s k => let! x := g k in Ok (fadd s x)) n d0) as (s & E & ->); auto.
  intros j s Hj ->. rewrite H by lia. cbn [bind]. eexists. split; [reflexivity|]. rewrite upto_snoc by lia. now rewrite fsum_snoc.
Qed.

(** ** One observation *)
(** the accumulators after the observations [done] *)
Definition acc_is (p : @plsi F) (K : Z) (beta : F) (done : list (Z * Z)) (a : @acc F) : Prop :=
  zlen (a_z a) = K /\ zlen (a_p a) = K /\
  zlen (a_u a) = K /\ Forall (fun r => zlen r = zlen (userlist p)) (a_u a) /\
  zlen (a_i a) = K /\ Forall (fun r => zlen r = zlen (itemlist p)) (a_i a) /\
  a_n a = zlen done /\ a_l a = fsum (fun o => flog (total p beta o)) done /\
  forall k, 0 <= k < K ->
    el d0 (a_z a) k = fsum (post p beta k) done /\
    (forall u, 0 <= u < zlen (userlist p) -> el2 d0 (a_u a) k u = fsum (post p beta k) (filter (fun o => snd o =? u) done)) /\
    (forall i, 0 <= i < zlen (itemlist p) -> el2 d0 (a_i a) k i = fsum (post p beta k) (filter (fun o => fst o =? i) done)).

Lemma step_obs_ok p K beta done a i u : shaped p K -> 0 <= K -> acc_is p K beta done a -> zlen done < 2 ^ 31 - 1 ->
  0 <= i < zlen (itemlist p) -> 0 <= u < zlen (userlist p) ->
  exists a', step_obs fadd fmul fdiv fpow flog fz p K beta a i u = Ok a' /\ acc_is p K beta (done ++ [(i, u)]) a'.
Proof.
  intros (S1 & S2 & S3 & S4 & S5) HK (A1 & A2 & A3 & A4 & A5 & A6 & A7 & A8 & A9) Hn Hi Hu. unfold step_obs.
  unfold inc_int. rewrite A7. destruct (Z.ltb_spec (zlen done) (2 ^ 31 - 1)); [|lia]. cbn [bind].
  (* E-step *)
  match goal with |- context [foldM ?f (upto K) (fz 0, a_p a)] =>
    destruct (loop (fun j s => fst s = fsum (weight p beta (i, u)) (upto j) /\ zlen (snd s) = K /\ forall k, 0 <= k < j -> el d0 (snd s) k = weight p beta (i, u) k) f K (fz 0, a_p a)) as ([sum pzl] & E & P1 & P2 & P3)
  end; auto.
  { cbn [fst snd]. split; [reflexivity|]. split; [auto|lia]. }
  { intros j [s pzl] Hj (Q1 & Q2 & Q3). cbn [fst snd] in *. rewrite (el_ok d0) by lia. cbn [bind]. rewrite (el2_ok d0 (user_z p) (zlen (userlist p))) by (auto; lia). cbn [bind].
    rewrite (el2_ok d0 (item_z p) (zlen (itemlist p))) by (auto; lia). cbn [bind].
    destruct (wr_el d0 pzl j (fpow (fmul (fmul (el d0 (zv p) j) (el2 d0 (user_z p) j u)) (el2 d0 (item_z p) j i)) beta)) as (l' & -> & L & G); [lia|]. cbn [bind].
    eexists. split; [reflexivity|]. cbn [fst snd]. split; [rewrite upto_snoc by lia; rewrite fsum_snoc, Q1; reflexivity|]. split; [lia|].
    intros k Hk. rewrite G by lia. destruct (Z.eqb_spec k j) as [->|N]; [reflexivity|]. apply Q3. lia. }
  cbn [fst snd] in P1, P2, P3. subst sum. rewrite E. cbn [bind]. clear E.
  assert (T : fsum (weight p beta (i, u)) (upto K) = total p beta (i, u)) by (unfold total; now rewrite S1). rewrite T.
  (* M-step *)
  match goal with |- context [foldM ?f (upto K) (a_u a, a_i a, a_z a)] =>
    destruct (loop (fun j s => let '(un, inn, zn) := s in
      zlen un = K /\ Forall (fun r => zlen r = zlen (userlist p)) un /\ zlen inn = K /\ Forall (fun r => zlen r = zlen (itemlist p)) inn /\ zlen zn = K /\
      forall k, 0 <= k < K -> let x := post p beta k (i, u) in
        el d0 zn k = (if k <? j then fadd (el d0 (a_z a) k) x else el d0 (a_z a) k) /\
        (forall v, 0 <= v < zlen (userlist p) -> el2 d0 un k v = if (k <? j) && (u =? v) then fadd (el2 d0 (a_u a) k v) x else el2 d0 (a_u a) k v) /\
        (forall v, 0 <= v < zlen (itemlist p) -> el2 d0 inn k v = if (k <? j) && (i =? v) then fadd (el2 d0 (a_i a) k v) x else el2 d0 (a_i a) k v)) f K (a_u a, a_i a, a_z a)) as ([[un inn] zn] & E & M1 & M2 & M3 & M4 & M5 & M6)
  end; auto.
  { split; [auto|]. split; [auto|]. split; [auto|]. split; [auto|]. split; [auto|]. intros k Hk. cbn [andb]. rewrite (proj2 (Z.ltb_ge k 0)) by lia. cbn [andb]. auto. }
  { intros j [[un inn] zn] Hj (Q1 & Q2 & Q3 & Q4 & Q5 & Q6). rewrite (el_ok d0) by lia. cbn [bind]. rewrite P3 by lia. fold (post p beta j (i, u)).
    rewrite (el2_ok d0 un (zlen (userlist p))) by (auto; lia). cbn [bind].
    destruct (wr2_el d0 un (zlen (userlist p)) j u (fadd (el2 d0 un j u) (post p beta j (i, u)))) as (un' & -> & L1 & L2 & L3); [lia|auto|lia|]. cbn [bind].
    rewrite (el2_ok d0 inn (zlen (itemlist p))) by (auto; lia). cbn [bind].
    destruct (wr2_el d0 inn (zlen (itemlist p)) j i (fadd (el2 d0 inn j i) (post p beta j (i, u)))) as (inn' & -> & L4 & L5 & L6); [lia|auto|lia|]. cbn [bind].
    rewrite (el_ok d0) by lia. cbn [bind].
    destruct (wr_el d0 zn j (fadd (el d0 zn j) (post p beta j (i, u)))) as (zn' & -> & L7 & L8); [lia|]. cbn [bind].
    eexists. split; [reflexivity|]. cbv beta iota. split; [lia|]. split; [auto|]. split; [lia|]. split; [auto|]. split; [lia|].
    intros k Hk. destruct (Q6 k Hk) as (R1 & R2 & R3). cbv zeta in *. split; [|split].
    - rewrite L8 by lia. destruct (Z.eqb_spec k j) as [->|N].
      + rewrite R1. destruct (Z.ltb_spec j j); [lia|]. destruct (Z.ltb_spec j (j + 1)); [auto|lia].
      + rewrite R1. destruct (Z.ltb_spec k j), (Z.ltb_spec k (j + 1)); auto; lia.
    - intros v Hv. rewrite L3 by lia. destruct (Z.eqb_spec k j) as [->|N]; cbn [andb].
      + destruct (Z.ltb_spec j (j + 1)); [|lia]. cbn [andb]. rewrite (Z.eqb_sym u v). destruct (Z.eqb_spec v u) as [->|Nv].
        * rewrite R2 by lia. destruct (Z.ltb_spec j j); [lia|]. reflexivity.
        * rewrite R2 by lia. destruct (Z.ltb_spec j j); [lia|]. reflexivity.
      + rewrite R2 by lia. destruct (Z.ltb_spec k j), (Z.ltb_spec k (j + 1)); auto; lia.
    - intros v Hv. rewrite L6 by lia. destruct (Z.eqb_spec k j) as [->|N]; cbn [andb].
      + destruct (Z.ltb_spec j (j + 1)); [|lia]. cbn [andb]. rewrite (Z.eqb_sym i v). destruct (Z.eqb_spec v i) as [->|Nv].
        * rewrite R3 by lia. destruct (Z.ltb_spec j j); [lia|]. reflexivity.
        * rewrite R3 by lia. destruct (Z.ltb_spec j j); [lia|]. reflexivity.
      + rewrite R3 by lia. destruct (Z.ltb_spec k j), (Z.ltb_spec k (j + 1)); auto; lia. }
  rewrite E. cbn [bind]. eexists. split; [reflexivity|]. unfold acc_is. cbn [a_z a_p a_u a_i a_n a_l].
  split; [auto|]. split; [auto|]. split; [auto|]. split; [auto|]. split; [auto|]. split; [auto|]. split; [rewrite zlen_app; reflexivity|].
  split; [rewrite fsum_snoc, A8; reflexivity|]. intros k Hk. destruct (M6 k Hk) as (R1 & R2 & R3). destruct (A9 k Hk) as (B1 & B2 & B3). cbv zeta in *.
  destruct (Z.ltb_spec k K); [|lia]. cbn [andb] in *. split; [rewrite R1, B1, fsum_snoc; auto|]. split.
  - intros v Hv. rewrite filter_app, R2, B2 by lia. cbn [filter snd]. destruct (Z.eqb_spec u v); [rewrite fsum_snoc; auto|rewrite app_nil_r; auto].
  - intros v Hv. rewrite filter_app, R3, B3 by lia. cbn [filter fst]. destruct (Z.eqb_spec i v); [rewrite fsum_snoc; auto|rewrite app_nil_r; auto].
Qed.

(** the iteration over all observations *)
Lemma zlen_repr_map (l : list Z) : zlen (map (fun k => (k, true)) l) = zlen l.
Proof. unfold zlen. now rewrite map_length. Qed.
Lemma obs_len_in l ll id : In l ll -> zlen l <= zlen (obs_from id ll).
Proof.
  revert id. induction ll as [|a ll IH]; intros id [].
  - subst. cbn [obs_from]. rewrite zlen_app. unfold zlen. rewrite map_length. lia.
  - cbn [obs_from]. rewrite zlen_app. specialize (IH (id + 1) H). unfold zlen in *. lia.
Qed.
Lemma each_row_ok {S} (P : list (Z * Z) -> S -> Prop) body m ll : forall id done s,
  Forall2 (fun row l => SparseProps.repr row (map (fun k => (k, true)) l) /\ SparseProps.is_packed (SparseModel.tab row) = false) m ll ->
  zlen (obs_from id ll) < 2 ^ 30 - 1 -> P done s ->
  (forall dn i u rest s, done ++ obs_from id ll = dn ++ (i, u) :: rest -> P dn s -> exists s', body s i u = Ok s' /\ P (dn ++ [(i, u)]) s') ->
  exists s' m', each_row body id m s = Ok (s', m') /\ P (done ++ obs_from id ll) s' /\
    Forall2 (fun row l => SparseProps.repr row (map (fun k => (k, true)) l) /\ SparseProps.is_packed (SparseModel.tab row) = false) m' ll.
Proof.
  revert ll. induction m as [|row m IH]; intros ll id done s FA Hn HP Hb; inversion FA as [|? l ? ll' (Rp & Pk) FA']; subst; cbn [each_row].
  - exists s, []. cbn [obs_from]. rewrite app_nil_r. auto.
  - cbn [obs_from] in Hn. rewrite zlen_app in Hn.
    destruct (SparseProps.iterate_ok row _ Rp) as (row' & E & Rp' & Pk').
    { unfold SparseProps.room. rewrite zlen_repr_map. unfold zlen in *. rewrite map_length in Hn. pose proof (Nat2Z.is_nonneg (length (obs_from (id + 1) ll'))). lia. }
    rewrite E. cbn [bind].
    destruct (loop_list (fun dn s => P (done ++ map (fun e : Z * bool => (id, fst e)) dn) s) (fun s e => body s id (fst e)) (map (fun k => (k, true)) l) [] s) as (s1 & -> & P1).
    + cbn [map]. now rewrite app_nil_r.
    + intros dn x rest s1 I P1. cbn [app] in I.
      destruct (Hb (done ++ map (fun e : Z * bool => (id, fst e)) dn) id (fst x) (map (fun e : Z * bool => (id, fst e)) rest ++ obs_from (id + 1) ll') s1) as (s2 & E2 & P2); auto.
      { cbn [obs_from]. rewrite <- app_assoc. f_equal. rewrite app_comm_cons, app_assoc. f_equal. apply (f_equal (map (fun e : Z * bool => (id, fst e)))) in I.
        rewrite map_map, map_app in I. cbn [fst map] in I. exact I. }
      exists s2. split; auto. rewrite map_app. cbn [map fst]. rewrite app_assoc. auto.
    + cbn [bind app] in *. rewrite map_map in P1. cbn [fst] in P1.
      destruct (IH ll' (id + 1) (done ++ map (fun x => (id, x)) l) s1) as (s2 & m2 & -> & P2 & FA2); auto.
      * pose proof (zlen_nonneg (map (fun u => (id, u)) l)). lia.
      * intros dn i u rest s2 I. apply (Hb dn i u rest). cbn [obs_from]. rewrite <- I, <- app_assoc. auto.
      * cbn [bind]. exists s2, (row' :: m2). split; auto. cbn [obs_from]. rewrite app_assoc. split; auto. constructor; auto. split; congruence.
Qed.
(** ** The update *)
Lemma zeros_el n k : el d0 (zeros fz n) k = d0.
Proof. unfold el, zeros, d0. rewrite nth_repeat. auto. Qed.
Lemma zeros2_el n m k i : el2 d0 (repeat (zeros fz n) m) k i = d0.
Proof.
  unfold el2. assert (H : nth (Z.to_nat k) (repeat (zeros fz n) m) [] = zeros fz n \/ nth (Z.to_nat k) (repeat (zeros fz n) m) [] = []).
  { generalize (Z.to_nat k). clear. induction m as [|m IH]; intros [|j]; cbn; auto. }
  destruct H as [-> | ->]; [apply zeros_el|]. unfold el. destruct (Z.to_nat i); auto.
Qed.
Lemma zeros_len n : 0 <= n -> zlen (zeros fz n) = n.
Proof. intros H. unfold zlen, zeros. rewrite repeat_length. lia. Qed.

Lemma update_ok p K beta obs a : shaped p K -> 0 <= K -> indexed (users p) (userlist p) -> indexed (items p) (itemlist p) -> forall q,
  users q = users p -> items q = items p -> acc_is q K beta obs a -> userlist q = userlist p -> itemlist q = itemlist p -> zv q = zv p -> user_z q = user_z p -> item_z q = item_z p ->
  exists p', step_update fdiv fz p K a = Ok p' /\ em_update q p' beta obs /\ shaped p' K /\
    users p' = users p /\ userlist p' = userlist p /\ items p' = items p /\ itemlist p' = itemlist p /\ matrix p' = matrix p.
Proof.
  intros (S1 & S2 & S3 & S4 & S5) HK IU II q Eu Ei (A1 & A2 & A3 & A4 & A5 & A6 & A7 & A8 & A9) Eul Eil Ez Euz Eiz. unfold step_update.
  rewrite Eul in *. rewrite Eil in *.
  pose proof (indexed_len _ _ IU) as LU. pose proof (indexed_len _ _ II) as LI.
  pose proof (zlen_nonneg (userlist p)) as NU. pose proof (zlen_nonneg (itemlist p)) as NI.
  match goal with |- context [foldM ?f (upto K) (zv p, user_z p, item_z p)] =>
    destruct (loop (fun j s => let '(z, uz, iz) := s in
      zlen z = K /\ zlen uz = K /\ Forall (fun r => zlen r = zlen (userlist p)) uz /\ zlen iz = K /\ Forall (fun r => zlen r = zlen (itemlist p)) iz /\
      forall k, 0 <= k < j ->
        el d0 z k = fdiv (el d0 (a_z a) k) (fz (a_n a)) /\
        (forall v, 0 <= v < zlen (userlist p) -> el2 d0 uz k v = fdiv (el2 d0 (a_u a) k v) (el d0 (a_z a) k)) /\
        (forall v, 0 <= v < zlen (itemlist p) -> el2 d0 iz k v = fdiv (el2 d0 (a_i a) k v) (el d0 (a_z a) k))) f K (zv p, user_z p, item_z p)) as ([[z uz] iz] & E & M1 & M2 & M3 & M4 & M5 & M6)
  end; auto.
  { split; [auto|]. split; [auto|]. split; [auto|]. split; [auto|]. split; [auto|]. lia. }
  { intros j [[z uz] iz] Hj (Q1 & Q2 & Q3 & Q4 & Q5 & Q6). rewrite (el_ok d0) by lia. cbn [bind].
    destruct (wr_el d0 z j (fdiv (el d0 (a_z a) j) (fz (a_n a)))) as (z' & -> & L1 & L2); [lia|]. cbn [bind].
    match goal with |- context [foldM ?f (upto (zlen (items p))) iz] =>
      destruct (loop (fun n iz' => zlen iz' = K /\ Forall (fun r => zlen r = zlen (itemlist p)) iz' /\
        forall k v, 0 <= k < K -> 0 <= v < zlen (itemlist p) -> el2 d0 iz' k v = if (k =? j) && (v <? n) then fdiv (el2 d0 (a_i a) k v) (el d0 (a_z a) k) else el2 d0 iz k v) f (zlen (items p)) iz) as (iz' & -> & I1 & I2 & I3)
    end; [lia| | |].
    { split; [auto|]. split; [auto|]. intros k v Hk Hv. destruct (Z.ltb_spec v 0); [lia|]. now rewrite andb_false_r. }
    { intros n iz1 Hn' (R1 & R2 & R3). rewrite (el2_ok d0 (a_i a) (zlen (itemlist p))) by (auto; lia). cbn [bind].
      destruct (wr2_el d0 iz1 (zlen (itemlist p)) j n (fdiv (el2 d0 (a_i a) j n) (el d0 (a_z a) j))) as (iz2 & -> & T1 & T2 & T3); [lia|auto|lia|].
      eexists. split; [reflexivity|]. split; [lia|]. split; [auto|]. intros k v Hk Hv. rewrite T3 by lia. rewrite R3 by lia.
      destruct (Z.eqb_spec k j) as [->|N]; cbn [andb]; auto. destruct (Z.eqb_spec v n) as [->|N2]; [destruct (Z.ltb_spec n (n + 1)); [auto|lia]|].
      destruct (Z.ltb_spec v n), (Z.ltb_spec v (n + 1)); auto; lia. }
    cbn [bind].
    match goal with |- context [foldM ?f (upto (zlen (users p))) uz] =>
      destruct (loop (fun n uz' => zlen uz' = K /\ Forall (fun r => zlen r = zlen (userlist p)) uz' /\
        forall k v, 0 <= k < K -> 0 <= v < zlen (userlist p) -> el2 d0 uz' k v = if (k =? j) && (v <? n) then fdiv (el2 d0 (a_u a) k v) (el d0 (a_z a) k) else el2 d0 uz k v) f (zlen (users p)) uz) as (uz' & -> & J1 & J2 & J3)
    end; [lia| | |].
    { split; [auto|]. split; [auto|]. intros k v Hk Hv. destruct (Z.ltb_spec v 0); [lia|]. now rewrite andb_false_r. }
    { intros n uz1 Hn' (R1 & R2 & R3). rewrite (el2_ok d0 (a_u a) (zlen (userlist p))) by (auto; lia). cbn [bind].
      destruct (wr2_el d0 uz1 (zlen (userlist p)) j n (fdiv (el2 d0 (a_u a) j n) (el d0 (a_z a) j))) as (uz2 & -> & T1 & T2 & T3); [lia|auto|lia|].
      eexists. split; [reflexivity|]. split; [lia|]. split; [auto|]. intros k v Hk Hv. rewrite T3 by lia. rewrite R3 by lia.
      destruct (Z.eqb_spec k j) as [->|N]; cbn [andb]; auto. destruct (Z.eqb_spec v n) as [->|N2]; [destruct (Z.ltb_spec n (n + 1)); [auto|lia]|].
      destruct (Z.ltb_spec v n), (Z.ltb_spec v (n + 1)); auto; lia. }
    cbn [bind]. eexists. split; [reflexivity|]. cbv beta iota. split; [lia|]. split; [auto|]. split; [auto|]. split; [auto|]. split; [auto|].
    intros k Hk. rewrite L2 by lia. destruct (Z.eqb_spec k j) as [->|N].
    - split; [reflexivity|]. split; intros v Hv.
      + rewrite J3 by lia. rewrite Z.eqb_refl, LU. destruct (Z.ltb_spec v (zlen (userlist p))); [reflexivity|lia].
      + rewrite I3 by lia. rewrite Z.eqb_refl, LI. destruct (Z.ltb_spec v (zlen (itemlist p))); [reflexivity|lia].
    - destruct (Q6 k) as (R1 & R2 & R3); [lia|]. split; auto. split; intros v Hv.
      + rewrite J3 by lia. destruct (Z.eqb_spec k j); [lia|]. cbn [andb]. auto.
      + rewrite I3 by lia. destruct (Z.eqb_spec k j); [lia|]. cbn [andb]. auto. }
  rewrite E. cbn [bind]. eexists. split; [reflexivity|]. unfold set_params, shaped, em_update, pz, pu, pi. cbn [users userlist items itemlist matrix zv user_z item_z].
  split.
  - rewrite Ez, Eu, Ei, S1, LU, LI. intros k Hk. destruct (M6 k Hk) as (R1 & R2 & R3). destruct (A9 k Hk) as (B1 & B2 & B3). rewrite B1, A7 in R1. split; [exact R1|]. split; intros v Hv.
    + rewrite R2, B1, B2 by auto. reflexivity.
    + rewrite R3, B1, B3 by auto. reflexivity.
  - auto 10.
Qed.

(** ** C88: one step is the EM update of the observations, whatever the arithmetic; its result is the log-likelihood of the parameters before it *)
Theorem C88_step p ll K beta : data p ll -> shaped p K -> small K ll ->
  exists p', step fadd fmul fdiv fpow flog fz p beta = Ok (fsum (fun o => flog (total p beta o)) (obs_from 0 ll), p') /\
    em_update p p' beta (obs_from 0 ll) /\ data p' ll /\ shaped p' K /\ userlist p' = userlist p /\ itemlist p' = itemlist p.
Proof.
  intros (DU & DI & DR & DL & DO) Sh (HK & Hn). pose proof Sh as (S1 & S2 & S3 & S4 & S5). unfold step. rewrite S1, int_of_id by lia.
  rewrite (indexed_len _ _ DU), (indexed_len _ _ DI).
  pose proof (zlen_nonneg (userlist p)) as NU. pose proof (zlen_nonneg (itemlist p)) as NI.
  match goal with |- context [each_row ?b 0 (matrix p) ?a0] =>
    destruct (each_row_ok (acc_is p K beta) b (matrix p) ll 0 [] a0) as (a & m' & -> & A & FA); auto
  end.
  - unfold acc_is. cbn [a_z a_p a_u a_i a_n a_l]. rewrite !zeros_len by lia. assert (RL : forall (A : Type) (x : A), zlen (repeat x (Z.to_nat K)) = K) by (intros; unfold zlen; rewrite repeat_length; lia). rewrite !RL.
    split; [auto|]. split; [auto|]. split; [auto|]. split; [apply Forall_forall; intros r I; apply repeat_spec in I; subst; apply zeros_len; lia|].
    split; [auto|]. split; [apply Forall_forall; intros r I; apply repeat_spec in I; subst; apply zeros_len; lia|]. split; [auto|]. split; [auto|].
    intros k Hk. rewrite zeros_el. split; [auto|]. split; intros v Hv; rewrite zeros2_el; auto.
  - intros dn i u rest s E P. cbn [app] in E. assert (I : In (i, u) (obs_from 0 ll)) by (rewrite E; apply in_or_app; right; left; auto).
    apply step_obs_ok; auto; [lia| | |].
    + apply (f_equal zlen) in E. rewrite zlen_app, zlen_cons in E. pose proof (zlen_nonneg rest). lia.
    + apply obs_item_range in I. lia.
    + eapply DO; eauto.
  - cbn [bind app] in *. destruct (update_ok (set_matrix p m') K beta (obs_from 0 ll) a) with (q := p) as (p' & -> & EM & Sh' & Q1 & Q2 & Q3 & Q4 & Q5); auto; [lia|].
    cbn [bind]. exists p'. destruct A as (_ & _ & _ & _ & _ & _ & _ & -> & _). split; [reflexivity|]. split; [exact EM|]. cbn [set_matrix users userlist items itemlist matrix] in *.
    split; [|auto]. unfold data, rows_are. rewrite Q1, Q2, Q3, Q4, Q5. auto.
Qed.

(** ** startLearning *)
(** the parameters of a fresh model *)
Definition started (p : @plsi F) (K : Z) : Prop :=
  let M := zlen (users p) in let N := zlen (items p) in
  forall k, 0 <= k < K ->
    pz p k = fdiv (fz 1) (fz K) /\
    (forall u, 0 <= u < M -> pu p k u = fdiv (fz 1) (fz M)) /\
    (forall i, 0 <= i < N -> pi p k i = fdiv (rnd (Z.to_nat (k * N + i))) (fsum (fun j => rnd (Z.to_nat (k * N + j))) (upto N))).

Lemma fill_ok (x : F) n : 0 <= n -> fold_left (fun l (_ : Z) => l ++ [x]) (upto n) [] = repeat x (Z.to_nat n).
Proof.
  intros Hn. rewrite <- (Z2Nat.id n) by lia. generalize (Z.to_nat n). clear. intros n. rewrite Nat2Z.id. induction n as [|n IH]; [reflexivity|].
  replace (Z.of_nat (Datatypes.S n)) with (Z.of_nat n + 1) by lia. rewrite upto_snoc by lia. rewrite fold_left_app, IH. cbn [fold_left]. rewrite <- repeat_cons. reflexivity.
Qed.
Lemma draw_ok n g : 0 <= n -> fold_left (fun '(l, s, g) (_ : Z) => let r := rnd g in (l ++ [r], fadd s r, Datatypes.S g)) (upto n) ([], fz 0, g) =
  (map (fun j => rnd (g + Z.to_nat j)%nat) (upto n), fsum (fun j => rnd (g + Z.to_nat j)%nat) (upto n), (g + Z.to_nat n)%nat).
Proof.
  intros Hn. rewrite <- (Z2Nat.id n) by lia. generalize (Z.to_nat n). clear. intros n. rewrite Nat2Z.id. induction n as [|n IH]; [cbn; f_equal; lia|].
  replace (Z.of_nat (Datatypes.S n)) with (Z.of_nat n + 1) by lia. rewrite upto_snoc by lia. rewrite fold_left_app, IH. cbn [fold_left]. rewrite map_app, fsum_snoc. cbn [map].
  rewrite Nat2Z.id. do 2 f_equal. lia.
Qed.
Lemma el_map_upto (f : Z -> F) n k : 0 <= k < n -> el d0 (map f (upto n)) k = f k.
Proof.
  intros H. unfold el. rewrite nth_indep with (d' := f 0) by (pose proof (upto_len n ltac:(lia)) as U; unfold zlen in U; rewrite map_length; lia).
  rewrite map_nth. f_equal. unfold upto. change 0 with (Z.of_nat 0) at 1. rewrite map_nth, seq_nth by lia. lia.
Qed.
Lemma el_repeat (x : F) n k : 0 <= k < n -> el d0 (repeat x (Z.to_nat n)) k = x.
Proof.
  intros H. unfold el. assert (G : (Z.to_nat k < Z.to_nat n)%nat) by lia. revert G. generalize (Z.to_nat k), (Z.to_nat n). clear. intros a b. revert a.
  induction b as [|b IH]; intros [|a] G; cbn; try lia; auto. apply IH. lia.
Qed.
Lemma resize_nil n : resize_rows (@nil (list F)) n = repeat [] (Z.to_nat n).
Proof. unfold resize_rows. rewrite firstn_nil. cbn [app length]. now rewrite Nat.sub_0_r. Qed.
Lemma wr_el_rows (m : list (list F)) k r : 0 <= k < zlen m -> exists m', wr m k r = Ok m' /\ zlen m' = zlen m /\ forall j, 0 <= j -> nth (Z.to_nat j) m' [] = if j =? k then r else nth (Z.to_nat j) m [].
Proof. intros H. destruct (wr_el [] m k r H) as (m' & E & L & G). exists m'. unfold el in G. auto. Qed.

Theorem C88_start p ll K : data p ll -> zv p = [] -> user_z p = [] -> item_z p = [] -> 0 <= K ->
  exists p', startLearning fadd fdiv fz rnd p K = Ok p' /\ started p' K /\ data p' ll /\ shaped p' K /\ userlist p' = userlist p /\ itemlist p' = itemlist p.
Proof.
  intros (DU & DI & DR & DL & DO) Ez Eu Ei HK. unfold startLearning. destruct (Z.ltb_spec K 0); [lia|]. rewrite Ez, Eu, Ei, !resize_nil.
  pose proof (indexed_len _ _ DU) as LU. pose proof (indexed_len _ _ DI) as LI. rewrite LU, LI.
  set (M := zlen (userlist p)). set (N := zlen (itemlist p)). assert (HM : 0 <= M) by apply zlen_nonneg. assert (HN : 0 <= N) by apply zlen_nonneg.
  assert (RL : zlen (repeat (@nil F) (Z.to_nat K)) = K) by (unfold zlen; rewrite repeat_length; lia).
  match goal with |- context [foldM ?f (upto K) ?s0] =>
    destruct (loop (fun j s => let '(z, uz, iz, g) := s in
      z = repeat (fdiv (fz 1) (fz K)) (Z.to_nat j) /\ zlen uz = K /\ zlen iz = K /\ g = Z.to_nat (j * N) /\
      forall k, 0 <= k < K ->
        nth (Z.to_nat k) uz [] = (if k <? j then repeat (fdiv (fz 1) (fz M)) (Z.to_nat M) else []) /\
        (if k <? j then zlen (nth (Z.to_nat k) iz []) = N /\ forall i, 0 <= i < N -> el d0 (nth (Z.to_nat k) iz []) i = fdiv (rnd (Z.to_nat (k * N + i))) (fsum (fun j => rnd (Z.to_nat (k * N + j))) (upto N))
         else nth (Z.to_nat k) iz [] = [])) f K s0) as ([[[z uz] iz] g] & E & P1 & P2 & P3 & P4 & P5)
  end; auto.
  { split; [reflexivity|]. split; [auto|]. split; [auto|]. split; [reflexivity|]. intros k Hk. destruct (Z.ltb_spec k 0); [lia|].
    assert (Q : nth (Z.to_nat k) (repeat (@nil F) (Z.to_nat K)) [] = []) by (rewrite nth_repeat; auto). auto. }
  { intros j [[[z uz] iz] g] Hj (Q1 & Q2 & Q3 & Q4 & Q5). destruct (Q5 j Hj) as (U & I). destruct (Z.ltb_spec j j); [lia|].
    rewrite (el_ok [] uz) by lia. cbn [bind]. unfold el at 1. rewrite U. rewrite fill_ok by lia.
    destruct (wr_el_rows uz j (repeat (fdiv (fz 1) (fz M)) (Z.to_nat M))) as (uz' & -> & L1 & L2); [lia|]. cbn [bind].
    rewrite (el_ok [] iz) by lia. cbn [bind]. unfold el at 1. rewrite I. rewrite draw_ok by lia.
    set (l0 := map (fun j0 : Z => rnd (g + Z.to_nat j0)) (upto N)). set (s := fsum (fun j0 : Z => rnd (g + Z.to_nat j0)) (upto N)).
    assert (L0 : zlen l0 = N) by (unfold l0, zlen; rewrite map_length; apply upto_len; lia).
    destruct (loop (fun n l => zlen l = N /\ forall i, 0 <= i < N -> el d0 l i = if i <? n then fdiv (el d0 l0 i) s else el d0 l0 i) (fun l j0 => let! x := rd l j0 in wr l j0 (fdiv x s)) N l0) as (l1 & -> & R1 & R2); [lia| | |].
    { split; auto. intros i Hi. destruct (Z.ltb_spec i 0); [lia|auto]. }
    { intros n l Hn (T1 & T2). rewrite (el_ok d0) by lia. cbn [bind]. destruct (wr_el d0 l n (fdiv (el d0 l n) s)) as (l' & -> & T3 & T4); [lia|]. eexists. split; [reflexivity|].
      split; [lia|]. intros i Hi. rewrite T4 by lia. destruct (Z.eqb_spec i n) as [->|Nn].
      - rewrite T2 by lia. destruct (Z.ltb_spec n n); [lia|]. destruct (Z.ltb_spec n (n + 1)); [auto|lia].
      - rewrite T2 by lia. destruct (Z.ltb_spec i n), (Z.ltb_spec i (n + 1)); auto; lia. }
    cbn [bind]. destruct (wr_el_rows iz j l1) as (iz' & -> & L3 & L4); [lia|]. cbn [bind]. eexists. split; [reflexivity|]. cbv beta iota.
    split; [rewrite Q1; replace (Z.to_nat (j + 1)) with (Datatypes.S (Z.to_nat j)) by lia; rewrite <- repeat_cons; reflexivity|].
    split; [lia|]. split; [lia|]. split; [rewrite Q4; nia|]. intros k Hk. rewrite L2, L4 by lia. destruct (Q5 k Hk) as (U' & I'). destruct (Z.eqb_spec k j) as [->|Nk].
    - destruct (Z.ltb_spec j (j + 1)); [|lia]. split; auto. split; auto. intros i Hi. rewrite R2 by lia. destruct (Z.ltb_spec i N); [|lia].
      unfold l0. rewrite el_map_upto by lia. unfold s. rewrite Q4. f_equal.
      + f_equal. nia.
      + unfold fsum. assert (X : forall l a, (forall x, In x l -> 0 <= x) -> fold_left (fun s x => fadd s (rnd (Z.to_nat (j * N) + Z.to_nat x)%nat)) l a = fold_left (fun s x => fadd s (rnd (Z.to_nat (j * N + x)))) l a).
        { induction l as [|y l IH]; intros a Hl; cbn [fold_left]; auto. rewrite IH by (intros; apply Hl; right; auto). do 3 f_equal. specialize (Hl y (or_introl eq_refl)). nia. }
        apply X. intros x Hx. apply in_upto in Hx. lia.
    - destruct (Z.ltb_spec k j), (Z.ltb_spec k (j + 1)); try lia; auto. }
  rewrite E. cbn [bind]. eexists. split; [reflexivity|]. unfold started, data, shaped, rows_are, pz, pu, pi. cbn [set_params users userlist items itemlist matrix zv user_z item_z]. rewrite LU, LI. fold M N.
  split; [|split; [auto|split; [|auto]]].
  - intros k Hk. destruct (P5 k Hk) as (U & I). destruct (Z.ltb_spec k K); [|lia]. split; [rewrite P1, el_repeat by lia; auto|]. split.
    + intros u Hu. unfold el2. rewrite U. apply el_repeat. auto.
    + intros i Hi. unfold el2. destruct I as (_ & I). apply I. auto.
  - split; [rewrite P1; unfold zlen; rewrite repeat_length; lia|]. split; [auto|]. split; [|split; [auto|]].
    + apply Forall_forall. intros r Ir. apply (In_nth _ _ []) in Ir. destruct Ir as (n & Hn & <-). destruct (P5 (Z.of_nat n)) as (U & _); [unfold zlen in P2; lia|].
      rewrite Nat2Z.id in U. rewrite U. destruct (Z.ltb_spec (Z.of_nat n) K); [|unfold zlen in P2; lia]. unfold zlen. rewrite repeat_length. lia.
    + apply Forall_forall. intros r Ir. apply (In_nth _ _ []) in Ir. destruct Ir as (n & Hn & <-). destruct (P5 (Z.of_nat n)) as (_ & I); [unfold zlen in P3; lia|].
      rewrite Nat2Z.id in I. destruct (Z.ltb_spec (Z.of_nat n) K); [|unfold zlen in P3; lia]. apply I.
Qed.

(** ** Ranking *)
(** the n best of the scored ids, for scores without NaN *)
Definition ranked (n : Z) (entries t : list (F * Z)) : Prop :=
  TopScoreProps.total_order gtb leb -> TopScoreProps.is_top leb n entries t.

Definition top_inv (n : Z) (t : @TopScoreModel.top F Z) : Prop :=
  TopScoreModel.maxSize t = n /\ 0 <= TopScoreModel.tsize t <= n /\ zlen (TopScoreModel.tbl t) = n.
Lemma shift_safe n : forall i (t : list (F * Z)), 0 <= i -> i + Z.of_nat n < zlen t -> exists t', TopScoreModel.shift n i t = Ok t' /\ zlen t' = zlen t.
Proof.
  induction n as [|n IH]; intros i t Hi Hn; cbn [TopScoreModel.shift]; eauto.
  rewrite (el_ok (d0, 0)) by lia. cbn [bind]. destruct (wr_el (d0, 0) t (i + Z.of_nat n + 1) (el (d0, 0) t (i + Z.of_nat n))) as (t1 & -> & L & _); [lia|]. cbn [bind].
  destruct (IH i t1) as (t2 & -> & L2); [lia|lia|]. exists t2. split; auto. lia.
Qed.
Lemma search_safe mx size score : 2 <= mx < 2 ^ 31 -> size <= mx -> forall fuel i (t : list (F * Z)), zlen t = mx -> 0 <= i -> size - i <= Z.of_nat fuel ->
  exists t' pos, TopScoreModel.search gtb fuel mx size i score t = Ok (t', pos) /\ zlen t' = mx /\ -1 <= pos < mx.
Proof.
  intros Hm Hs. induction fuel as [|n IH]; intros i t L Hi Hf; cbn [TopScoreModel.search].
  - destruct (Z.ltb_spec i size); [lia|]. cbn [negb]. exists t, (-1). split; auto. lia.
  - destruct (Z.ltb_spec i size); cbn [negb]; [|exists t, (-1); split; auto; lia]. rewrite (el_ok (d0, 0)) by lia. cbn [bind]. destruct (gtb score (fst (el (d0, 0) t i))).
    + unfold TopScoreModel.usize. rewrite !Z.mod_small by lia. rewrite !TopScoreProps.to_int_id by lia.
      destruct (shift_safe (Z.to_nat (Z.min (mx - 2) (size - 1) - i + 1)) i t) as (t' & -> & L'); [lia|lia|]. cbn [bind]. exists t', i. split; auto. lia.
    + apply IH; lia.
Qed.
Lemma add_safe n t s x : 2 <= n < 2 ^ 31 -> top_inv n t -> exists t', TopScoreModel.add gtb leb t s x = Ok t' /\ top_inv n t'.
Proof.
  intros Hn (M & Sz & L). unfold TopScoreModel.add. rewrite M.
  assert (E : exists b : bool, (if TopScoreModel.tsize t =? n then let! x0 := rd (TopScoreModel.tbl t) (TopScoreModel.usize (TopScoreModel.tsize t - 1)) in Ok (leb s (fst x0)) else Ok false) = Ok b).
  { destruct (Z.eqb_spec (TopScoreModel.tsize t) n) as [Q|Q]; [|eauto]. unfold TopScoreModel.usize. rewrite Z.mod_small by lia. rewrite (el_ok (d0, 0)) by lia. cbn [bind]. eauto. }
  destruct E as (b & ->). cbn [bind]. destruct b; [exists t; split; [auto|split; auto]|].
  assert (E : exists v pos, (if 0 <? TopScoreModel.tsize t then TopScoreModel.search gtb (Z.to_nat (TopScoreModel.tsize t)) n (TopScoreModel.tsize t) 0 s (TopScoreModel.tbl t) else Ok (TopScoreModel.tbl t, -1)) = Ok (v, pos) /\ zlen v = n /\ -1 <= pos < n).
  { destruct (Z.ltb_spec 0 (TopScoreModel.tsize t)); [apply search_safe; lia|]. exists (TopScoreModel.tbl t), (-1). split; auto. lia. }
  destruct E as (v & pos & -> & Lv & Hp). cbn [bind].
  destruct (Z.ltb_spec (TopScoreModel.tsize t) n) as [Q|Q].
  - rewrite TopScoreProps.to_int_id by lia. destruct (Z.ltb_spec pos 0).
    + destruct (Z.eqb_spec (TopScoreModel.tsize t) (-1)); [lia|]. destruct (wr_el (d0, 0) v (TopScoreModel.tsize t) (s, x)) as (v' & -> & L' & _); [lia|]. cbn [bind].
      eexists. split; [reflexivity|]. unfold top_inv. cbn [TopScoreModel.maxSize TopScoreModel.tsize TopScoreModel.tbl]. lia.
    + destruct (Z.eqb_spec pos (-1)); [lia|]. destruct (wr_el (d0, 0) v pos (s, x)) as (v' & -> & L' & _); [lia|]. cbn [bind].
      eexists. split; [reflexivity|]. unfold top_inv. cbn [TopScoreModel.maxSize TopScoreModel.tsize TopScoreModel.tbl]. lia.
  - destruct (Z.eqb_spec pos (-1)).
    + eexists. split; [reflexivity|]. unfold top_inv. cbn [TopScoreModel.maxSize TopScoreModel.tsize TopScoreModel.tbl]. lia.
    + destruct (wr_el (d0, 0) v pos (s, x)) as (v' & -> & L' & _); [lia|]. cbn [bind].
      eexists. split; [reflexivity|]. unfold top_inv. cbn [TopScoreModel.maxSize TopScoreModel.tsize TopScoreModel.tbl]. lia.
Qed.
Lemma run_adds (entries : list (F * Z)) : forall t,
  TopScoreProps.run gtb leb (fz 0, 0) t (map (fun e => TopScoreProps.Add (fst e) (snd e)) entries ++ [TopScoreProps.Get]) =
  let! t := foldM (fun t e => rank gtb leb t (fst e) (snd e)) entries t in Ok [top_finish fz t].
Proof.
  induction entries as [|e r IH]; intros t; cbn [map app TopScoreProps.run foldM bind].
  - unfold top_finish. destruct (TopScoreModel.getTable (fz 0, 0) t). reflexivity.
  - change (rank gtb leb t (fst e) (snd e)) with (TopScoreModel.add gtb leb t (fst e) (snd e)). destruct (TopScoreModel.add gtb leb t (fst e) (snd e)) as [t'| | |]; cbn [bind]; auto.
Qed.
Lemma added_adds (entries : list (F * Z)) : forall l, TopScoreProps.added l (map (fun e => TopScoreProps.Add (fst e) (snd e)) entries ++ [TopScoreProps.Get]) = [l ++ entries].
Proof.
  induction entries as [|[s x] r IH]; intros l; cbn [map app TopScoreProps.added fst snd]; [now rewrite app_nil_r|]. rewrite IH, <- app_assoc. reflexivity.
Qed.
Lemma allowed_adds (entries : list (F * Z)) n : forall k, TopScoreProps.allowed n k false (map (fun e => TopScoreProps.Add (fst e) (snd e)) entries ++ [TopScoreProps.Get]) = true.
Proof. induction entries as [|[s x] r IH]; intros k; cbn [map app TopScoreProps.allowed fst snd negb andb]; auto. Qed.
Lemma rank_all (score : Z -> F) (g : Z -> res F) N top : 0 <= N -> 2 <= top < 2 ^ 31 -> (forall i, 0 <= i < N -> g i = Ok (score i)) ->
  exists t, (let! t := top_start fz top in foldM (fun t id => let! s := g id in rank gtb leb t s id) (upto N) t) = Ok t /\
    ranked top (map (fun i => (score i, i)) (upto N)) (top_finish fz t).
Proof.
  intros HN Ht Hg. unfold top_start. destruct (Z.ltb_spec top 0); [lia|]. cbn [bind].
  set (t0 := TopScoreModel.top_new (fz 0, 0) top). set (entries := map (fun i => (score i, i)) (upto N)).
  assert (E : forall l t, (forall i, In i l -> 0 <= i < N) -> foldM (fun t id => let! s := g id in rank gtb leb t s id) l t = foldM (fun t e => rank gtb leb t (fst e) (snd e)) (map (fun i => (score i, i)) l) t).
  { induction l as [|i l IH]; intros t H'; cbn [foldM map fst snd]; auto. rewrite Hg by (apply H'; left; auto). cbn [bind]. destruct (rank gtb leb t (score i) i); cbn [bind]; auto. apply IH. intros; apply H'; right; auto. }
  rewrite E by (intros i Hi; apply in_upto in Hi; auto). fold entries.
  destruct (loop_list (fun _ t => top_inv top t) (fun t e => rank gtb leb t (fst e) (snd e)) entries [] t0) as (t & T & _).
  - unfold top_inv, t0, TopScoreModel.top_new. cbn [TopScoreModel.maxSize TopScoreModel.tsize TopScoreModel.tbl]. unfold zlen. rewrite repeat_length. lia.
  - intros dn e rest t _ I. apply add_safe; auto.
  - exists t. split; auto. intros TO. pose proof (TopScoreProps.C51_top gtb leb (fz 0, 0) top (map (fun e => TopScoreProps.Add (fst e) (snd e)) entries ++ [TopScoreProps.Get]) TO Ht) as C.
    rewrite allowed_adds, added_adds, run_adds in C. fold t0 in C. rewrite T in C. cbn [bind app] in C. destruct C as (outs & C & Q). injection C as <-. inversion Q; subst. auto.
Qed.

(** ** C88: queries *)
(** p(user) and p(z = k, user) *)
Definition joint_user (p : @plsi F) (u k : Z) : F := fmul (pz p k) (pu p k u).
(** the score of item i for the user: sum p(i|z) p(z,user) / p(user) *)
Definition user_score (p : @plsi F) (u i : Z) : F :=
  fdiv (fsum (fun k => fmul (pi p k i) (joint_user p u k)) (upto (zlen (zv p)))) (fsum (joint_user p u) (upto (zlen (zv p)))).
(** the three similarities of item i to item t *)
Definition item_score (p : @plsi F) (ty : search_type) (t i : Z) : F :=
  match ty with
  | JOINT => fsum (fun k => fmul (fmul (pi p k i) (pi p k t)) (pz p k)) (upto (zlen (zv p)))
  | CONDITIONAL => fdiv (fsum (fun k => fmul (pi p k i) (fmul (pz p k) (pi p k t))) (upto (zlen (zv p)))) (fsum (fun k => fmul (pz p k) (pi p k t)) (upto (zlen (zv p))))
  | POSTERIOR => fdiv (fsum (fun k => fmul (pi p k t) (fmul (pi p k i) (pz p k))) (upto (zlen (zv p)))) (fsum (fun k => fmul (pi p k i) (pz p k)) (upto (zlen (zv p))))
  end.

Lemma fsum_loop_list (f : Z -> F) (g : Z -> res F) n : 0 <= n -> (forall k, 0 <= k < n -> g k = Ok (f k)) ->
  foldM (fun '(s, l) k => let! q := g k in Ok (fadd s q, l ++ [q])) (upto n) (fz 0, []) = Ok (fsum f (upto n), map f (upto n)).
Proof.
  intros Hn H. destruct (loop (fun j s => s = (fsum f (upto j), map f (upto j))) (fun '(s, l) k => let! q := g k in Ok (fadd s q, l ++ [q])) n (fz 0, [])) as (s & E & ->); auto.
  intros j s Hj ->. rewrite H by lia. cbn [bind]. eexists. split; [reflexivity|]. rewrite upto_snoc by lia. now rewrite fsum_snoc, map_app.
Qed.
Theorem C88_search p ll K user u top : data p ll -> shaped p K -> small K ll -> index_of (userlist p) user = Some u -> 2 <= top < 2 ^ 31 ->
  exists t, search_items fadd fmul fdiv fz gtb leb p user top = Ok (t, p) /\
    ranked top (map (fun i => (user_score p u i, i)) (upto (zlen (itemlist p)))) t.
Proof.
  intros (DU & DI & DR & DL & DO) (S1 & S2 & S3 & S4 & S5) (HK & Hn) Ix Ht. unfold search_items. rewrite S1, int_of_id by lia.
  unfold get_user_id. rewrite (lookup_ok _ _ _ DU), Ix. pose proof (index_range _ _ _ Ix) as Hu.
  rewrite (foldM_ext _ (fun '(s, l) k => let! q := (let! a := rd (zv p) k in let! b := rd2 (user_z p) k u in Ok (fmul a b)) in Ok (fadd s q, l ++ [q]))).
  2:{ intros [s l] k _. destruct (rd (zv p) k); cbn [bind]; auto. destruct (rd2 (user_z p) k u); auto. }
  rewrite (fsum_loop_list (joint_user p u)); [|lia|].
  2:{ intros k Hk. rewrite (el_ok d0) by lia. cbn [bind]. rewrite (el2_ok d0 (user_z p) (zlen (userlist p))) by (auto; lia). reflexivity. }
  cbn [bind]. rewrite (indexed_len _ _ DI).
  destruct (rank_all (user_score p u) (fun id => let! score := foldM (fun s k => let! x := (let! a := rd2 (item_z p) k id in let! b := rd (map (joint_user p u) (upto K)) k in Ok (fmul a b)) in Ok (fadd s x)) (upto K) (fz 0) in Ok (fdiv score (fsum (joint_user p u) (upto K)))) (zlen (itemlist p)) top) as (t & E & R); [apply zlen_nonneg|auto| |].
  { intros i Hi. rewrite (sum_loop (fun k => fmul (pi p k i) (joint_user p u k))); [|lia|].
    - cbn [bind]. unfold user_score. rewrite S1. reflexivity.
    - intros k Hk. rewrite (el2_ok d0 (item_z p) (zlen (itemlist p))) by (auto; lia). cbn [bind]. rewrite (el_ok d0) by (unfold zlen; rewrite map_length; pose proof (upto_len K ltac:(lia)) as U; unfold zlen in U; lia).
      cbn [bind]. rewrite el_map_upto by lia. reflexivity. }
  exists (top_finish fz t). split; auto. destruct (top_start fz top) as [t0| | |] eqn:Et; cbn [bind] in *; try discriminate.
  erewrite foldM_ext; [rewrite E; reflexivity|]. intros s id _. cbv beta.
  erewrite (foldM_ext _ (fun s k => let! x := (let! a := rd2 (item_z p) k id in let! b := rd (map (joint_user p u) (upto K)) k in Ok (fmul a b)) in Ok (fadd s x))).
  2:{ intros s0 k _. destruct (rd2 (item_z p) k id); cbn [bind]; auto. destruct (rd (map (joint_user p u) (upto K)) k); auto. }
  match goal with |- context [foldM ?f (upto K) (fz 0)] => destruct (foldM f (upto K) (fz 0)); auto end.
Qed.

Theorem C88_similar p ll K item ty t top : data p ll -> shaped p K -> small K ll -> index_of (itemlist p) item = Some t -> 2 <= top < 2 ^ 31 ->
  exists tb, similar_items fadd fmul fdiv fz gtb leb p item ty top = Ok (tb, p) /\
    ranked top (map (fun i => (item_score p ty t i, i)) (upto (zlen (itemlist p)))) tb.
Proof.
  intros (DU & DI & DR & DL & DO) (S1 & S2 & S3 & S4 & S5) (HK & Hn) Ix Ht. unfold similar_items. rewrite S1, int_of_id by lia.
  unfold get_item_id. rewrite (lookup_ok _ _ _ DI), Ix. pose proof (index_range _ _ _ Ix) as Hu. rewrite (indexed_len _ _ DI).
  pose proof (zlen_nonneg (itemlist p)) as NI.
  destruct ty.
  - destruct (rank_all (item_score p JOINT t) (fun id => foldM (fun s k => let! x := (let! a := rd2 (item_z p) k id in let! b := rd2 (item_z p) k t in let! z := rd (zv p) k in Ok (fmul (fmul a b) z)) in Ok (fadd s x)) (upto K) (fz 0)) (zlen (itemlist p)) top) as (tb & E & R); [lia|auto| |].
    { intros i Hi. unfold item_score. rewrite S1. apply sum_loop; [lia|]. intros k Hk. rewrite !(el2_ok d0 (item_z p) (zlen (itemlist p))) by (auto; lia). cbn [bind]. rewrite (el_ok d0) by lia. reflexivity. }
    exists (top_finish fz tb). split; auto. destruct (top_start fz top) as [t0| | |] eqn:Et; cbn [bind] in *; try discriminate.
    erewrite foldM_ext; [rewrite E; reflexivity|]. intros s id _. cbv beta.
    erewrite (foldM_ext _ (fun s k => let! x := (let! a := rd2 (item_z p) k id in let! b := rd2 (item_z p) k t in let! z := rd (zv p) k in Ok (fmul (fmul a b) z)) in Ok (fadd s x))); [reflexivity|].
    intros s0 k _. destruct (rd2 (item_z p) k id); cbn [bind]; auto. destruct (rd2 (item_z p) k t); cbn [bind]; auto. destruct (rd (zv p) k); auto.
  - set (q k := fmul (pz p k) (pi p k t)).
    rewrite (foldM_ext _ (fun '(s, l) k => let! q := (let! a := rd (zv p) k in let! b := rd2 (item_z p) k t in Ok (fmul a b)) in Ok (fadd s q, l ++ [q]))).
    2:{ intros [s l] k _. destruct (rd (zv p) k); cbn [bind]; auto. destruct (rd2 (item_z p) k t); auto. }
    rewrite (fsum_loop_list q); [|lia|].
    2:{ intros k Hk. rewrite (el_ok d0) by lia. cbn [bind]. rewrite (el2_ok d0 (item_z p) (zlen (itemlist p))) by (auto; lia). reflexivity. }
    destruct (rank_all (item_score p CONDITIONAL t) (fun id => let! score := foldM (fun s k => let! x := (let! a := rd2 (item_z p) k id in let! b := rd (map q (upto K)) k in Ok (fmul a b)) in Ok (fadd s x)) (upto K) (fz 0) in Ok (fdiv score (fsum q (upto K)))) (zlen (itemlist p)) top) as (tb & E & R); [lia|auto| |].
    { intros i Hi. rewrite (sum_loop (fun k => fmul (pi p k i) (q k))); [|lia|].
      - cbn [bind]. unfold item_score. rewrite S1. reflexivity.
      - intros k Hk. rewrite (el2_ok d0 (item_z p) (zlen (itemlist p))) by (auto; lia). cbn [bind]. rewrite (el_ok d0) by (unfold zlen; rewrite map_length; pose proof (upto_len K ltac:(lia)) as U; unfold zlen in U; lia).
        cbn [bind]. rewrite el_map_upto by lia. reflexivity. }
    exists (top_finish fz tb). split; auto. destruct (top_start fz top) as [t0| | |] eqn:Et; cbn [bind] in *; try discriminate.
    erewrite foldM_ext; [rewrite E; reflexivity|]. intros s id _. cbv beta.
    erewrite (foldM_ext _ (fun s k => let! x := (let! a := rd2 (item_z p) k id in let! b := rd (map q (upto K)) k in Ok (fmul a b)) in Ok (fadd s x))).
    2:{ intros s0 k _. destruct (rd2 (item_z p) k id); cbn [bind]; auto. destruct (rd (map q (upto K)) k); auto. }
    match goal with |- context [foldM ?f (upto K) (fz 0)] => destruct (foldM f (upto K) (fz 0)); auto end.
  - destruct (rank_all (item_score p POSTERIOR t) (fun id => let! (score, p_y) := foldM (fun '(score, p_y) k =>
              let! a := rd2 (item_z p) k id in let! z := rd (zv p) k in
              let q := fmul a z in
              let p_y := fadd p_y q in
              let! b := rd2 (item_z p) k t in
              Ok (fadd score (fmul b q), p_y)) (upto K) (fz 0, fz 0) in Ok (fdiv score p_y)) (zlen (itemlist p)) top) as (tb & E & R); [lia|auto| |].
    { intros i Hi. match goal with |- context [foldM ?f (upto K) (fz 0, fz 0)] =>
        destruct (loop (fun j s => s = (fsum (fun k => fmul (pi p k t) (fmul (pi p k i) (pz p k))) (upto j), fsum (fun k => fmul (pi p k i) (pz p k)) (upto j))) f K (fz 0, fz 0)) as (s & -> & ->); [lia|reflexivity| |] end.
      - intros j s Hj ->. rewrite !(el2_ok d0 (item_z p) (zlen (itemlist p))) by (auto; lia). cbn [bind]. rewrite (el_ok d0) by lia. cbn [bind]. eexists. split; [reflexivity|]. rewrite upto_snoc by lia. rewrite !fsum_snoc. reflexivity.
      - cbn [bind]. unfold item_score. rewrite S1. reflexivity. }
    exists (top_finish fz tb). split; auto. destruct (top_start fz top) as [t0| | |] eqn:Et; cbn [bind] in *; try discriminate.
    erewrite foldM_ext; [rewrite E; reflexivity|]. intros s id _. cbv beta.
    match goal with |- context [foldM ?f (upto K) (fz 0, fz 0)] => destruct (foldM f (upto K) (fz 0, fz 0)) as [[]| | |]; auto end.
Qed.

(** exp (- (1/n) sum log p(item|user)) over the n observations *)
Definition perplexity_spec (p : @plsi F) (obs : list (Z * Z)) : F :=
  fexp (fdiv (fopp (fsum (fun o => flog (fdiv (fsum (fun k => fmul (joint_user p (snd o) k) (pi p k (fst o))) (upto (zlen (zv p)))) (fsum (joint_user p (snd o)) (upto (zlen (zv p)))))) obs)) (fz (zlen obs))).
Theorem C88_perplexity p ll K : data p ll -> shaped p K -> small K ll ->
  exists p', perplexity fadd fmul fdiv fopp flog fexp fz p = Ok (perplexity_spec p (obs_from 0 ll), p') /\ data p' ll /\
    zv p' = zv p /\ user_z p' = user_z p /\ item_z p' = item_z p /\ userlist p' = userlist p /\ itemlist p' = itemlist p.
Proof.
  intros (DU & DI & DR & DL & DO) (S1 & S2 & S3 & S4 & S5) (HK & Hn). unfold perplexity. rewrite S1, int_of_id by lia. rewrite (indexed_len _ _ DU).
  pose proof (zlen_nonneg (userlist p)) as NU.
  match goal with |- context [foldM ?f (upto (zlen (userlist p))) []] =>
    destruct (loop (fun j l => l = map (fun u => fsum (joint_user p u) (upto K)) (upto j)) f (zlen (userlist p)) []) as (l & -> & ->); [lia|reflexivity| |] end.
  { intros j l Hj ->. erewrite (foldM_ext _ (fun s k => let! x := (let! a := rd (zv p) k in let! b := rd2 (user_z p) k j in Ok (fmul a b)) in Ok (fadd s x))).
    2:{ intros s0 k _. destruct (rd (zv p) k); cbn [bind]; auto. destruct (rd2 (user_z p) k j); auto. }
    rewrite (sum_loop (joint_user p j)); [|lia|].
    - cbn [bind]. eexists. split; [reflexivity|]. rewrite upto_snoc by lia. rewrite map_app. reflexivity.
    - intros k Hk. rewrite (el_ok d0) by lia. cbn [bind]. rewrite (el2_ok d0 (user_z p) (zlen (userlist p))) by (auto; lia). reflexivity. }
  cbn [bind].
  match goal with |- context [each_row ?b 0 (matrix p) ?a0] =>
    destruct (each_row_ok (fun dn s => s = (zlen dn, fsum (fun o => flog (fdiv (fsum (fun k => fmul (joint_user p (snd o) k) (pi p k (fst o))) (upto K)) (fsum (joint_user p (snd o)) (upto K)))) dn)) b (matrix p) ll 0 [] a0) as (a & m' & -> & A & FA); auto
  end.
  - intros dn i u rest s E ->. cbn [app] in E. assert (I : In (i, u) (obs_from 0 ll)) by (rewrite E; apply in_or_app; right; left; auto).
    assert (Hi : 0 <= i < zlen (itemlist p)) by (apply obs_item_range in I; lia). assert (Hu : 0 <= u < zlen (userlist p)) by (eapply DO; eauto).
    assert (Hd : zlen dn < 2 ^ 31 - 1) by (apply (f_equal zlen) in E; rewrite zlen_app, zlen_cons in E; pose proof (zlen_nonneg rest); lia).
    unfold inc_int. destruct (Z.ltb_spec (zlen dn) (2 ^ 31 - 1)); [|lia]. cbn [bind].
    erewrite (foldM_ext _ (fun s k => let! x := (let! a := rd (zv p) k in let! b := rd2 (user_z p) k u in let! c := rd2 (item_z p) k i in Ok (fmul (fmul a b) c)) in Ok (fadd s x))).
    2:{ intros s0 k _. destruct (rd (zv p) k); cbn [bind]; auto. destruct (rd2 (user_z p) k u); cbn [bind]; auto. destruct (rd2 (item_z p) k i); auto. }
    rewrite (sum_loop (fun k => fmul (joint_user p u k) (pi p k i))); [|lia|].
    2:{ intros k Hk. rewrite (el_ok d0) by lia. cbn [bind]. rewrite (el2_ok d0 (user_z p) (zlen (userlist p))) by (auto; lia). cbn [bind]. rewrite (el2_ok d0 (item_z p) (zlen (itemlist p))) by (auto; lia). reflexivity. }
    cbn [bind]. rewrite (el_ok d0) by (unfold zlen; rewrite map_length; pose proof (upto_len (zlen (userlist p)) ltac:(lia)) as U; unfold zlen in *; lia).
    cbn [bind]. rewrite el_map_upto by lia. eexists. split; [reflexivity|]. rewrite zlen_app, fsum_snoc. reflexivity.
  - cbn [bind app] in *. subst a. eexists. split; [unfold perplexity_spec; rewrite S1; reflexivity|]. unfold data, rows_are, set_matrix. cbn [users userlist items itemlist matrix zv user_z item_z]. auto 10.
Qed.

End Any.
