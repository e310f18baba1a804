(** Property C51 (nlp/top_score.hpp). *)
From Coq Require Import Permutation Sorted.
Require Import Verif.Common Verif.TopScoreModel.

(** ** Specification *)
(** scores that are totally ordered, as doubles without NaN or integers *)
Record total_order {S} (gtb leb : S -> S -> bool) : Prop := {
  to_neg : forall a b, gtb a b = negb (leb a b);
  to_refl : forall a, leb a a = true;
  to_trans : forall a b c, leb a b = true -> leb b c = true -> leb a c = true;
  to_total : forall a b, leb a b = true \/ leb b a = true }.
(** the added entries, numbered in the order of the calls *)
Fixpoint number {X} (n : nat) (l : list X) : list (nat * X) := match l with [] => [] | x :: r => (n, x) :: number (Datatypes.S n) r end.
(** better score first; among equal scores the earlier one *)
Definition before {S T} (leb : S -> S -> bool) (a b : nat * (S * T)) : Prop :=
  leb (fst (snd a)) (fst (snd b)) = false \/ (leb (fst (snd a)) (fst (snd b)) = true /\ leb (fst (snd b)) (fst (snd a)) = true /\ (fst a < fst b)%nat).
(** [t] is the list of the n best entries of [adds], best first *)
Definition is_top {S T} (leb : S -> S -> bool) (n : Z) (adds t : list (S * T)) : Prop :=
  exists tt rest, Permutation (tt ++ rest) (number 0 adds) /\ StronglySorted (before leb) (tt ++ rest) /\ t = map snd tt /\
    zlen t = Z.min n (zlen adds).

Inductive op (S T : Type) := Add (score : S) (idx : T) | Get.
Arguments Add {S T}. Arguments Get {S T}.
Fixpoint run {S T} gtb leb (zero : S * T) (t : top) (ops : list (op S T)) : res (list (list (S * T))) :=
  match ops with
  | [] => Ok []
  | Add s x :: r => let! t := add gtb leb t s x in run gtb leb zero t r
  | Get :: r => let (v, t) := getTable zero t in let! o := run gtb leb zero t r in Ok (v :: o)
  end.
(** the entries added before each getTable *)
Fixpoint added {S T} (acc : list (S * T)) (ops : list (op S T)) : list (list (S * T)) :=
  match ops with [] => [] | Add s x :: r => added (acc ++ [(s, x)]) r | Get :: r => acc :: added acc r end.
(** getTable shrinks the table while fewer than n entries were added, after which add is no longer allowed *)
Fixpoint allowed {S T} (n : Z) (k : Z) (frozen : bool) (ops : list (op S T)) : bool :=
  match ops with
  | [] => true
  | Add _ _ :: r => negb frozen && allowed n (k + 1) frozen r
  | Get :: r => allowed n k (frozen || (k <? n)) r
  end.

(** ** Proofs *)
Section Proofs.
Context {S T : Type} (gtb leb : S -> S -> bool) (zero : S * T) (TO : total_order gtb leb).
Let bef := @before S T leb.

Lemma bef_trans a b c : bef a b -> bef b c -> bef a c.
Proof.
  unfold bef, before. destruct TO as [_ RF TR TT]. intros [H|(H & H' & L)] [G|(G & G' & L2)].
  - left. destruct (leb (fst (snd a)) (fst (snd c))) eqn:E; auto. destruct (TT (fst (snd b)) (fst (snd c))) as [Q|Q]; [congruence|]. rewrite (TR _ _ _ E Q) in H. congruence.
  - left. destruct (leb (fst (snd a)) (fst (snd c))) eqn:E; auto. rewrite (TR _ _ _ E G') in H. congruence.
  - left. destruct (leb (fst (snd a)) (fst (snd c))) eqn:E; auto. rewrite (TR _ _ _ H' E) in G. congruence.
  - right. split; [eauto|]. split; [eauto|lia].
Qed.
Lemma shift_ok (b : list (S * T)) : forall a c r i, i = zlen a -> shift (length b) i (a ++ b ++ c :: r) = Ok (a ++ (match b with [] => c | x :: _ => x end) :: b ++ r).
Proof.
  induction b as [|y b IH] using rev_ind; intros a c r i ->; [reflexivity|].
  rewrite app_length. cbn [length]. rewrite Nat.add_1_r. cbn [shift]. rewrite <- app_assoc. cbn [app].
  assert (L : zlen a + Z.of_nat (length b) = zlen (a ++ b)) by (rewrite zlen_app; reflexivity). rewrite L.
  rewrite app_assoc, rd_app_exact. cbn [bind].
  assert (W : wr ((a ++ b) ++ y :: c :: r) (zlen (a ++ b) + 1) y = Ok (a ++ b ++ y :: y :: r)).
  { replace ((a ++ b) ++ y :: c :: r) with (((a ++ b) ++ [y]) ++ c :: r) by (rewrite <- app_assoc; auto).
    replace (zlen (a ++ b) + 1) with (zlen ((a ++ b) ++ [y])) by (rewrite zlen_app; reflexivity).
    rewrite wr_ok by (rewrite !zlen_app, !zlen_cons, ?zlen_nil; pose proof (zlen_nonneg r); pose proof (zlen_nonneg a); pose proof (zlen_nonneg b); lia). rewrite to_nat_zlen, upd_app_exact, <- !app_assoc. reflexivity. }
  rewrite W. cbn [bind]. rewrite IH by auto. f_equal. destruct b; cbn [app]; rewrite <- ?app_assoc; auto.
Qed.
Lemma to_int_id x : - 2 ^ 31 <= x < 2 ^ 31 -> to_int x = x.
Proof. intros H. unfold to_int. rewrite Z.mod_small; lia. Qed.
Lemma usize_id x : 0 <= x < 2 ^ 64 -> usize x = x.
Proof. intros H. unfold usize. apply Z.mod_small; lia. Qed.

(** the table holds the entries l (sorted), the rest of the n places unused *)
Lemma find_pos score (l : list (S * T)) : (forall e, In e l -> gtb score (fst e) = false) \/
  exists a x b, l = a ++ x :: b /\ (forall e, In e a -> gtb score (fst e) = false) /\ gtb score (fst x) = true.
Proof.
  induction l as [|y l [IH|(a & x & b & -> & H & G)]]; [left; intros ? []| |]; destruct (gtb score (fst y)) eqn:E.
  - right. exists [], y, l. split; auto. split; auto. intros ? [].
  - left. intros e [<-|I]; auto.
  - right. exists [], y, (a ++ x :: b). split; auto. split; auto. intros ? [].
  - right. exists (y :: a), x, b. split; auto. split; auto. intros e [<-|I]; auto.
Qed.
Lemma search_none score mx (pad : list (S * T)) : forall l a fuel, (forall e, In e l -> gtb score (fst e) = false) -> (length l <= fuel)%nat ->
  search gtb fuel mx (zlen (a ++ l)) (zlen a) score (a ++ l ++ pad) = Ok (a ++ l ++ pad, -1).
Proof.
  induction l as [|x l IH]; intros a fuel H F; destruct fuel as [|fuel]; cbn [search length] in *; try lia.
  - rewrite app_nil_r, Z.ltb_irrefl. auto.
  - rewrite app_nil_r, Z.ltb_irrefl. auto.
  - rewrite zlen_app, zlen_cons. pose proof (zlen_nonneg l). destruct (Z.ltb_spec (zlen a) (zlen a + (1 + zlen l))); [|lia]. cbn [negb].
    cbn [app]. rewrite rd_app_exact. cbn [bind]. rewrite (H x) by (left; auto).
    pose proof (IH (a ++ [x]) fuel ltac:(intros; apply H; right; auto) ltac:(lia)) as Q. rewrite !zlen_app, <- !app_assoc in Q. cbn [app] in Q.
    change (zlen [x]) with 1 in Q. replace (zlen a + (1 + zlen l)) with (zlen a + 1 + zlen l) by lia. exact Q.
Qed.
Lemma search_found score mx (x : S * T) b rest : gtb score (fst x) = true -> forall l a fuel, (forall e, In e l -> gtb score (fst e) = false) -> (length l < fuel)%nat ->
  search gtb fuel mx (zlen (a ++ l ++ x :: b)) (zlen a) score (a ++ l ++ x :: rest) =
  (let i := zlen (a ++ l) in
   let! t := shift (Z.to_nat (to_int (Z.min (usize (mx - 2)) (usize (zlen (a ++ l ++ x :: b) - 1))) - to_int i + 1)) (to_int i) (a ++ l ++ x :: rest) in Ok (t, to_int i)).
Proof.
  intros G. induction l as [|y l IH]; intros a fuel H F; destruct fuel as [|fuel]; cbn [search length] in *; try lia.
  - pose proof (zlen_nonneg b). cbn [app]. rewrite app_nil_r. replace (zlen a <? zlen (a ++ x :: b)) with true by (symmetry; apply Z.ltb_lt; rewrite zlen_app, zlen_cons; lia). cbn [negb].
    rewrite rd_app_exact. cbn [bind]. rewrite G. reflexivity.
  - replace (zlen a <? zlen (a ++ (y :: l) ++ x :: b)) with true by (symmetry; apply Z.ltb_lt; rewrite zlen_app; cbn [app]; rewrite zlen_cons; pose proof (zlen_nonneg (l ++ x :: b)); lia). cbn [negb].
    cbn [app]. rewrite rd_app_exact. cbn [bind]. rewrite (H y) by (left; auto).
    pose proof (IH (a ++ [y]) fuel ltac:(intros; apply H; right; auto) ltac:(lia)) as Q. rewrite <- !app_assoc in Q. cbn [app] in Q.
    rewrite (zlen_app a [y]) in Q. change (zlen [y]) with 1 in Q. rewrite Q. reflexivity.
Qed.
(** inserting after every entry that is not worse *)
Fixpoint ins (e : S * T) (l : list (S * T)) : list (S * T) :=
  match l with [] => [e] | x :: r => if gtb (fst e) (fst x) then e :: l else x :: ins e r end.
Lemma ins_none e l : (forall x, In x l -> gtb (fst e) (fst x) = false) -> ins e l = l ++ [e].
Proof. induction l as [|x l IH]; intros H; cbn [ins app]; auto. rewrite (H x) by (left; auto). rewrite IH; auto. intros; apply H; right; auto. Qed.
Lemma ins_found e a x b : (forall y, In y a -> gtb (fst e) (fst y) = false) -> gtb (fst e) (fst x) = true -> ins e (a ++ x :: b) = a ++ e :: x :: b.
Proof. intros H G. induction a as [|y a IH]; cbn [ins app]; [rewrite G; auto|]. rewrite (H y) by (left; auto). rewrite IH; auto. intros; apply H; right; auto. Qed.
(** the stored scores never increase *)
Definition desc (l : list (S * T)) : Prop := StronglySorted (fun a b => leb (fst b) (fst a) = true) l.
Lemma desc_last l x d : desc (l ++ [x]) -> forall e, In e (l ++ [x]) -> leb (fst x) (fst e) = true /\ last (l ++ [x]) d = x.
Proof.
  intros D e I. split; [|apply last_last]. revert D I. induction l as [|y l IH]; cbn [app]; intros D I.
  - destruct I as [<-|[]]. apply TO.
  - inversion D as [|? ? D' F]; subst. destruct I as [<-|I]; auto. rewrite Forall_forall in F. apply F. apply in_or_app. right. left. auto.
Qed.
Definition holds (n : Z) (t : top) (l : list (S * T)) : Prop :=
  exists pad, t = mk_top n (zlen l) (l ++ pad) /\ zlen l + zlen pad = n /\ desc l.
Lemma add_ok n t l s x : 2 <= n < 2 ^ 31 -> holds n t l -> exists t', add gtb leb t s x = Ok t' /\ holds n t' (firstn (Z.to_nat n) (ins (s, x) l)).
Proof.
  intros Hn (pad & -> & Hl & D). unfold add. cbn [tsize maxSize tbl].
  pose proof (zlen_nonneg l). pose proof (zlen_nonneg pad).
  assert (NL : Z.to_nat n = (length l + length pad)%nat) by (unfold zlen in *; lia).
  assert (DI : forall l', desc l' -> desc (ins (s, x) l')).
  { clear - TO. intros l' D. unfold desc in *. induction l' as [|y l' IH]; cbn [ins fst]; [constructor; constructor|]. inversion D as [|? ? D' F]; subst.
    destruct (gtb s (fst y)) eqn:G.
    - rewrite (to_neg _ _ TO) in G. apply negb_true_iff in G. assert (leb (fst y) s = true) by (destruct (to_total _ _ TO s (fst y)); congruence).
      constructor; auto. constructor; auto. rewrite Forall_forall in *. intros z I. apply (to_trans _ _ TO _ (fst y)); auto.
    - rewrite (to_neg _ _ TO) in G. apply negb_false_iff in G. constructor; [auto|]. clear - F G. rewrite Forall_forall in *. intros z I.
      assert (z = (s, x) \/ In z l') as [->|I'].
      { clear - I. induction l' as [|w l' IH]; cbn [ins] in I; [destruct I as [<-|[]]; auto|]. destruct (gtb _ _); [destruct I as [<-|I]; auto|]. destruct I as [<-|I]; [right; left; auto|]. destruct (IH I); auto. right; right; auto. }
      { auto. }
      { auto. } }
  assert (FD : forall k l', desc l' -> desc (firstn k l')).
  { clear. intros k l' D. unfold desc in *. revert k. induction D as [|y l' D IH F]; intros [|k]; cbn [firstn]; try constructor; auto. rewrite Forall_forall in *. intros z I. apply F.
    rewrite <- (firstn_skipn k l'). apply in_or_app. auto. }
  assert (LI : length (ins (s, x) l) = Datatypes.S (length l)).
  { clear. induction l as [|w l IH]; cbn [ins]; auto. destruct (gtb _ _); cbn; auto. }
  destruct (Z.eqb_spec (zlen l) n) as [Fu|NF].
  - assert (pad = []) by (destruct pad; auto; rewrite zlen_cons in *; pose proof (zlen_nonneg pad); lia). subst pad. rewrite app_nil_r. cbn [length] in NL.
    destruct (@exists_last _ l) as (l0 & z & E); [intros ->; cbn in *; lia|].
    assert (Z1 : zlen l - 1 = zlen l0) by (rewrite E, zlen_app; change (zlen [z]) with 1; lia).
    rewrite usize_id by lia. rewrite Z1. replace (rd l (zlen l0)) with (Ok z) by (rewrite E; symmetry; apply rd_app_exact). cbn [bind].
    assert (FL : firstn (Z.to_nat n) l = l) by (rewrite firstn_all2; auto; lia).
    destruct (leb s (fst z)) eqn:SH.
    + assert (IN : ins (s, x) l = l ++ [(s, x)]).
      { apply ins_none. intros y I. cbn [fst]. rewrite (to_neg _ _ TO). apply negb_false_iff. apply (to_trans _ _ TO _ (fst z)); auto. rewrite E in D, I. apply (desc_last l0 z z D y I). }
      eexists. split; [reflexivity|]. rewrite IN, firstn_app. replace (Z.to_nat n - length l)%nat with O by lia. cbn [firstn]. rewrite app_nil_r, FL.
      exists []. rewrite app_nil_r. split; [reflexivity|]. split; auto.
    + destruct (find_pos s l) as [NO|(a & y & b & El & HA & HG)].
      { exfalso. specialize (NO z). rewrite (to_neg _ _ TO), SH in NO. cbn in NO. discriminate NO. rewrite E. apply in_or_app. right. left. auto. }
      assert (LA : zlen a + (1 + zlen b) = n) by (rewrite <- Fu, El, zlen_app, zlen_cons; lia). pose proof (zlen_nonneg a). pose proof (zlen_nonneg b).
      destruct (Z.ltb_spec 0 (zlen l)); [|lia].
      pose proof (search_found s n y b b HG a [] (Z.to_nat (zlen l)) HA) as SF. cbn [app] in SF. rewrite <- El in SF. change (zlen []) with 0 in SF.
      rewrite SF by (rewrite to_nat_zlen, El, app_length; cbn; lia). clear SF. cbv zeta.
      rewrite usize_id, usize_id, (to_int_id (zlen a)) by lia. rewrite Z.min_l, to_int_id by lia.
      replace (Z.to_nat (n - 2 - zlen a + 1)) with (length b) by (unfold zlen in *; lia).
      destruct (@exists_last _ (y :: b)) as (b0 & c & EB); [discriminate|]. assert (LB : length b = length b0) by (apply (f_equal (@length _)) in EB; rewrite app_length in EB; cbn in EB; lia).
      pose proof (shift_ok b0 a c [] (zlen a) eq_refl) as SO. rewrite <- EB, <- El, <- LB, app_nil_r in SO. rewrite SO. cbn [bind].
      destruct (Z.ltb_spec (zlen l) n); [lia|]. destruct (Z.eqb_spec (zlen a) (-1)); [lia|].
      rewrite wr_ok by (rewrite zlen_app, zlen_cons; pose proof (zlen_nonneg b0); lia). cbn [bind]. rewrite to_nat_zlen, upd_app_exact.
      assert (IN : firstn (Z.to_nat n) (ins (s, x) l) = a ++ (s, x) :: b0).
      { rewrite El, ins_found by auto. rewrite EB. replace (a ++ (s, x) :: b0 ++ [c]) with ((a ++ (s, x) :: b0) ++ [c]) by (rewrite <- app_assoc; auto).
        rewrite firstn_app. assert (LL : length (a ++ (s, x) :: b0) = Z.to_nat n) by (rewrite app_length; cbn [length]; unfold zlen in *; lia).
        rewrite LL, Nat.sub_diag. cbn [firstn]. rewrite app_nil_r, <- LL. apply firstn_all. }
      eexists. split; [reflexivity|]. rewrite IN. assert (LL : length (a ++ (s, x) :: b0) = length l) by (rewrite El, !app_length; cbn [length]; lia). 
      exists []. rewrite app_nil_r. split; [f_equal; unfold zlen; lia|]. split; [cbn; unfold zlen in *; lia|].
      rewrite <- IN. auto.
  - destruct pad as [|d pad]; [cbn in *; lia|]. rewrite zlen_cons in *. pose proof (zlen_nonneg pad). cbn [bind]. 
    assert (FI : firstn (Z.to_nat n) (ins (s, x) l) = ins (s, x) l) by (apply firstn_all2; rewrite LI; cbn in NL; lia).
    destruct (find_pos s l) as [NO|(a & y & b & El & HA & HG)].
    + assert (SE : (if 0 <? zlen l then search gtb (Z.to_nat (zlen l)) n (zlen l) 0 s (l ++ d :: pad) else Ok (l ++ d :: pad, -1)) = Ok (l ++ d :: pad, -1)).
      { destruct (0 <? zlen l); auto. apply (search_none s n (d :: pad) l []); auto. rewrite to_nat_zlen. auto. }
      rewrite SE. cbn [bind]. destruct (Z.ltb_spec (zlen l) n); [|lia]. cbn [Z.ltb Z.compare]. rewrite to_int_id by lia. destruct (Z.eqb_spec (zlen l) (-1)); [lia|].
      rewrite wr_ok by (rewrite zlen_app, zlen_cons; lia). cbn [bind]. rewrite to_nat_zlen, upd_app_exact. eexists. split; [reflexivity|]. rewrite FI.
      assert (IN : ins (s, x) l = l ++ [(s, x)]) by (apply ins_none; auto). rewrite IN.
      
      exists pad. split; [f_equal; [rewrite zlen_app; reflexivity|rewrite <- app_assoc; auto]|]. split; [rewrite zlen_app; change (zlen [(s, x)]) with 1; lia|]. rewrite <- IN. auto.
    + pose proof (zlen_nonneg a). pose proof (zlen_nonneg b). assert (LA : zlen l = zlen a + (1 + zlen b)) by (rewrite El, zlen_app, zlen_cons; lia).
      destruct (Z.ltb_spec 0 (zlen l)); [|lia].
      pose proof (search_found s n y b (b ++ d :: pad) HG a [] (Z.to_nat (zlen l)) HA) as SF. cbn [app] in SF.
      replace (l ++ d :: pad) with (a ++ y :: b ++ d :: pad) by (rewrite El, <- app_assoc; auto).
      rewrite <- El in SF. change (zlen []) with 0 in SF. rewrite SF by (rewrite to_nat_zlen, El, app_length; cbn; lia). clear SF. cbv zeta.
      rewrite usize_id, usize_id, (to_int_id (zlen a)) by lia. rewrite Z.min_r, to_int_id by lia.
      replace (Z.to_nat (zlen l - 1 - zlen a + 1)) with (length (y :: b)) by (cbn [length]; unfold zlen in *; lia).
      change (a ++ y :: b ++ d :: pad) with (a ++ (y :: b) ++ d :: pad). rewrite (shift_ok (y :: b) a d pad (zlen a)) by auto. cbn [bind].
      destruct (Z.ltb_spec (zlen l) n); [|lia]. destruct (Z.ltb_spec (zlen a) 0); [lia|]. destruct (Z.eqb_spec (zlen a) (-1)); [lia|].
      rewrite wr_ok by (rewrite zlen_app, zlen_cons; pose proof (zlen_nonneg ((y :: b) ++ pad)); lia). cbn [bind]. rewrite to_nat_zlen, upd_app_exact.
      eexists. split; [reflexivity|]. rewrite FI. assert (IN : ins (s, x) l = a ++ (s, x) :: y :: b) by (rewrite El, ins_found by auto; auto). rewrite IN.
      assert (TX : a ++ (s, x) :: (y :: b) ++ pad = (a ++ (s, x) :: y :: b) ++ pad) by (rewrite <- app_assoc; auto).
      exists pad. split; [f_equal; [rewrite zlen_app, !zlen_cons; lia|auto]|]. split; [rewrite zlen_app, !zlen_cons; lia|]. rewrite <- IN. auto.
Qed.

(** ** The sorted list of everything added *)
Lemma firstn_ins e n : forall l, firstn n (ins e (firstn n l)) = firstn n (ins e l).
Proof.
  induction n as [|n IH]; intros l; [reflexivity|]. destruct l as [|x l]; [reflexivity|]. rewrite firstn_cons. cbn [ins]. destruct (gtb (fst e) (fst x)).
  - rewrite !firstn_cons. f_equal. destruct n as [|n]; [reflexivity|]. rewrite !firstn_cons, firstn_firstn. do 2 f_equal. lia.
  - rewrite !firstn_cons. f_equal. apply IH.
Qed.
Fixpoint insT (e : nat * (S * T)) (l : list (nat * (S * T))) : list (nat * (S * T)) :=
  match l with [] => [e] | x :: r => if gtb (fst (snd e)) (fst (snd x)) then e :: l else x :: insT e r end.
Lemma insT_snd e l : map snd (insT e l) = ins (snd e) (map snd l).
Proof. induction l as [|x l IH]; cbn [insT ins map]; auto. destruct (gtb _ _); cbn [map]; congruence. Qed.
Lemma insT_perm e l : Permutation (insT e l) (e :: l).
Proof. induction l as [|x l IH]; cbn [insT]; auto. destruct (gtb _ _); auto. rewrite IH. constructor. Qed.
Lemma insT_sorted e l : StronglySorted bef l -> (forall x, In x l -> (fst x < fst e)%nat) -> StronglySorted bef (insT e l).
Proof.
  induction 1 as [|x l Sl IH F]; intros L; cbn [insT]; [constructor; constructor|]. destruct (gtb (fst (snd e)) (fst (snd x))) eqn:G; rewrite (to_neg _ _ TO) in G.
  - apply negb_true_iff in G. assert (B : bef e x) by (left; auto). constructor; [constructor; auto|]. constructor; auto.
    rewrite Forall_forall in *. intros y I. apply (bef_trans e x y); auto.
  - apply negb_false_iff in G. constructor; [apply IH; intros; apply L; right; auto|]. rewrite Forall_forall in *. intros y I.
    apply (Permutation_in _ (insT_perm e l)) in I. destruct I as [<-|I]; [|apply F; auto].
    destruct (leb (fst (snd x)) (fst (snd e))) eqn:G2; [right|left; auto]. split; auto. split; auto. apply L. left. auto.
Qed.
Definition allT (acc : list (nat * (S * T))) : list (nat * (S * T)) := fold_left (fun l e => insT e l) acc [].
Definition all (acc : list (S * T)) : list (S * T) := fold_left (fun l e => ins e l) acc [].
Lemma all_snoc acc e : all (acc ++ [e]) = ins e (all acc).
Proof. unfold all. rewrite fold_left_app. reflexivity. Qed.
Lemma number_app {X} (a b : list X) : forall n, number n (a ++ b) = number n a ++ number (n + length a) b.
Proof. induction a as [|x a IH]; intros n; cbn [app number length]; [rewrite Nat.add_0_r; auto|]. rewrite IH. do 2 f_equal. f_equal. lia. Qed.
Lemma number_fst {X} (l : list X) : forall n x, In x (number n l) -> (n <= fst x < n + length l)%nat.
Proof. induction l as [|y l IH]; intros n x; cbn [number length]; [intros []|]. intros [<-|I]; [cbn; lia|]. specialize (IH _ _ I). lia. Qed.
Lemma allT_ok acc : Permutation (allT (number 0 acc)) (number 0 acc) /\ StronglySorted bef (allT (number 0 acc)) /\ map snd (allT (number 0 acc)) = all acc.
Proof.
  induction acc as [|e acc (P & Q & R)] using rev_ind; [repeat split; constructor|].
  rewrite number_app. cbn [number]. unfold allT. rewrite fold_left_app. cbn [fold_left]. fold (allT (number 0 acc)). rewrite all_snoc. split; [|split].
  - rewrite insT_perm, P. apply Permutation_cons_append.
  - apply insT_sorted; auto. intros x I. apply (Permutation_in _ P) in I. apply number_fst in I. cbn [fst]. lia.
  - rewrite insT_snd, R. reflexivity.
Qed.
Lemma all_length acc : zlen (all acc) = zlen acc.
Proof. destruct (allT_ok acc) as (P & _ & <-). unfold zlen. rewrite map_length. apply Permutation_length in P. rewrite P. clear. f_equal. generalize 0%nat. induction acc; cbn; auto. Qed.
Lemma top_ok n acc : 0 <= n -> is_top leb n acc (firstn (Z.to_nat n) (all acc)).
Proof.
  intros Hn. destruct (allT_ok acc) as (P & Q & R). exists (firstn (Z.to_nat n) (allT (number 0 acc))), (skipn (Z.to_nat n) (allT (number 0 acc))).
  rewrite firstn_skipn. split; auto. split; auto. split; [rewrite <- firstn_map; congruence|].
  unfold zlen. rewrite firstn_length. pose proof (all_length acc) as L. unfold zlen in L. lia.
Qed.
Lemma run_ok n (Hn : 2 <= n < 2 ^ 31) ops : forall t acc frozen,
  tsize t = Z.min n (zlen acc) -> maxSize t = n -> firstn (Z.to_nat (tsize t)) (tbl t) = firstn (Z.to_nat n) (all acc) ->
  (frozen = false -> holds n t (firstn (Z.to_nat n) (all acc))) -> (frozen = true -> zlen acc < n /\ tbl t = firstn (Z.to_nat n) (all acc)) ->
  if allowed n (zlen acc) frozen ops then exists outs, run gtb leb zero t ops = Ok outs /\ Forall2 (is_top leb n) (added acc ops) outs
  else run gtb leb zero t ops = UB.
Proof.
  induction ops as [|[s x|] ops IH]; intros t acc frozen T1 T2 T3 T4 T5; cbn [allowed run added].
  - exists []. split; auto.
  - destruct frozen; cbn [negb andb].
    + destruct (T5 eq_refl) as [L E]. pose proof (zlen_nonneg acc). unfold add. rewrite T1, T2, Z.min_r by lia. destruct (Z.eqb_spec (zlen acc) n); [lia|]. cbn [bind].
      assert (LT : zlen (tbl t) = zlen acc) by (rewrite E; unfold zlen; rewrite firstn_length; pose proof (all_length acc) as Q; unfold zlen in *; lia).
      assert (SU : forall f i, 0 <= i <= zlen acc -> (Z.to_nat (zlen acc - i) <= f)%nat -> match search gtb f n (zlen acc) i s (tbl t) with UB => True | Ok (v, p) => v = tbl t /\ p = -1 | _ => False end).
      { induction f as [|f IHf]; intros i Hi Hf; cbn [search]; destruct (Z.ltb_spec i (zlen acc)); cbn [negb]; auto; try lia.
        destruct (rd (tbl t) i) as [y| | |] eqn:RD; cbn [bind]; auto; try (unfold rd in RD; destruct (i <? 0); [discriminate|]; destruct (nth_error _ _); discriminate).
        destruct (gtb s (fst y)); [|apply IHf; lia].
        rewrite (usize_id (n - 2)), (usize_id (zlen acc - 1)), (to_int_id i), Z.min_r, to_int_id by lia.
        destruct (Z.to_nat (zlen acc - 1 - i + 1)) as [|k] eqn:EK; [lia|]. cbn [shift]. replace (i + Z.of_nat k) with (zlen acc - 1) by lia.
        destruct (rd (tbl t) (zlen acc - 1)) eqn:R2; cbn [bind]; auto; [|unfold rd in R2; destruct (_ <? 0); [discriminate|]; destruct (nth_error _ _); discriminate..].
        unfold wr. destruct (_ <? 0); cbn [orb bind]; auto. destruct (Z.leb_spec (Z.of_nat (length (tbl t))) (zlen acc - 1 + 1)); [cbn; auto|]. unfold zlen in *. lia. }
      assert (SR : match (if 0 <? zlen acc then search gtb (Z.to_nat (zlen acc)) n (zlen acc) 0 s (tbl t) else Ok (tbl t, -1)) with UB => True | Ok (v, p) => v = tbl t /\ p = -1 | _ => False end).
      { destruct (0 <? zlen acc); auto. apply SU; lia. }
      destruct (if 0 <? zlen acc then _ else _) as [[v p]| | |]; try tauto; auto. destruct SR as [-> ->]. cbn [bind].
      destruct (Z.ltb_spec (zlen acc) n); [|lia]. cbn [Z.ltb Z.compare]. rewrite to_int_id by lia. destruct (Z.eqb_spec (zlen acc) (-1)); [lia|].
      unfold wr. destruct (_ <? 0); auto. cbn [orb]. destruct (Z.leb_spec (Z.of_nat (length (tbl t))) (zlen acc)); auto. unfold zlen in *. lia.
    + destruct (add_ok n t _ s x Hn (T4 eq_refl)) as (t' & E & Hh). rewrite E. cbn [bind].
      rewrite firstn_ins, <- all_snoc in Hh. replace (zlen acc + 1) with (zlen (acc ++ [(s, x)])) by (rewrite zlen_app; reflexivity).
      pose proof Hh as (pad & Et & _ & _). apply (IH t' _ false); auto; try discriminate; subst t'; cbn [tsize maxSize tbl]; auto.
      * unfold zlen at 1. rewrite firstn_length. pose proof (all_length (acc ++ [(s, x)])) as Q. unfold zlen in *. lia.
      * rewrite to_nat_zlen. rewrite firstn_app, firstn_all, Nat.sub_diag. cbn [firstn]. apply app_nil_r.
  - unfold getTable. assert (V : firstn (Z.to_nat (tsize t)) (tbl t) ++ repeat zero (Z.to_nat (tsize t) - length (tbl t)) = firstn (Z.to_nat n) (all acc)).
    { rewrite T3. replace (Z.to_nat (tsize t) - length (tbl t))%nat with O; [apply app_nil_r|]. pose proof (f_equal (@length _) T3) as Q. rewrite !firstn_length in Q. pose proof (all_length acc) as Q2. unfold zlen in *. lia. }
    rewrite V. assert (TS : Z.to_nat (tsize t) = length (firstn (Z.to_nat n) (all acc))) by (rewrite firstn_length; pose proof (all_length acc) as Q2; unfold zlen in *; lia).
    specialize (IH (mk_top (maxSize t) (tsize t) (firstn (Z.to_nat n) (all acc))) acc (frozen || (zlen acc <? n))).
    cbn [tsize maxSize tbl] in IH. 
    destruct (allowed n (zlen acc) (frozen || (zlen acc <? n)) ops).
    + destruct IH as (outs & E & F); auto.
      * rewrite TS, firstn_all. auto.
      * intros Fr. apply orb_false_iff in Fr. destruct Fr as [-> Fr]. apply Z.ltb_ge in Fr. destruct (T4 eq_refl) as (pad & -> & Lp & D).
        exists []. rewrite app_nil_r. cbn [maxSize tsize]. split; [reflexivity|]. split; auto. change (zlen (@nil (S * T))) with 0. cbn [tsize] in T1. rewrite T1. lia.
      * intros Fr. apply orb_true_iff in Fr. destruct Fr as [->|Fr]; [destruct (T5 eq_refl); auto|]. apply Z.ltb_lt in Fr. auto.
      * rewrite E. cbn [bind]. eexists. split; [reflexivity|]. constructor; auto. apply top_ok. lia.
    + rewrite IH; auto.
      * rewrite TS, firstn_all. auto.
      * intros Fr. apply orb_false_iff in Fr. destruct Fr as [-> Fr]. apply Z.ltb_ge in Fr. destruct (T4 eq_refl) as (pad & -> & Lp & D).
        exists []. rewrite app_nil_r. cbn [maxSize tsize]. split; [reflexivity|]. split; auto. change (zlen (@nil (S * T))) with 0. cbn [tsize] in T1. rewrite T1. lia.
      * intros Fr. apply orb_true_iff in Fr. destruct Fr as [->|Fr]; [destruct (T5 eq_refl); auto|]. apply Z.ltb_lt in Fr. auto.
Qed.
End Proofs.

(** Every history of add and getTable: each getTable shows the n best of the entries added so far, best first, earlier first
    among equals; if add is called after a getTable that saw fewer than n entries, the table is accessed out of range. *)
Theorem C51_top {S T} gtb leb (zero : S * T) n ops : total_order gtb leb -> 2 <= n < 2 ^ 31 ->
  if allowed n 0 false ops then exists outs, run gtb leb zero (top_new zero n) ops = Ok outs /\ Forall2 (is_top leb n) (added [] ops) outs
  else run gtb leb zero (top_new zero n) ops = UB.
Proof.
  intros TO Hn. apply (run_ok gtb leb zero TO n Hn ops (top_new zero n) [] false).
  - cbn. lia.
  - reflexivity.
  - cbn. destruct (Z.to_nat n); reflexivity.
  - intros _. cbn [all fold_left]. rewrite firstn_nil. exists (repeat zero (Z.to_nat n)). split; [reflexivity|]. split; [unfold zlen; rewrite repeat_length; cbn; lia|constructor].
  - discriminate.
Qed.
Lemma Z_order : total_order Z.gtb Z.leb.
Proof. constructor; intros; rewrite ?Z.gtb_ltb; lia. Qed.
Example C51_case : run Z.gtb Z.leb (0, 0) (top_new (0, 0) 3) [Add 5 1; Add 7 2; Add 5 3; Add 9 4; Add 5 5; Get; Add 6 6; Get]
  = Ok [[(9, 4); (7, 2); (5, 1)]; [(9, 4); (7, 2); (6, 6)]].
Proof. reflexivity. Qed.
Example C51_case_allowed : allowed 3 0 false [Add 5 1; Add 7 2; Add 5 3; Add 9 4; Add 5 5; Get; Add 6 6; Get] = true.
Proof. reflexivity. Qed.
(** sizes 0 and 1 *)
Theorem C51_small_finding {S T} gtb leb (zero : S * T) s x :
  add gtb leb (top_new zero 0) s x = UB /\
  forall s2 x2 t, add gtb leb (top_new zero 1) s x = Ok t -> gtb s2 s = true -> leb s2 s = false -> add gtb leb t s2 x2 = UB.
Proof.
  split; [reflexivity|]. intros s2 x2 t E G L. cbv in E. injection E as <-. cbv. rewrite L, G. reflexivity.
Qed.
(** after setSize every add is out of range *)
Theorem C51_setSize_finding {S T} gtb leb (t : top) n (s : S) (x : T) : 0 <= n < 2 ^ 31 -> add gtb leb (setSize t n) s x = UB.
Proof.
  intros Hn. unfold add, setSize. cbn [tsize maxSize tbl]. destruct (Z.eqb_spec 0 n) as [<-|N]; [reflexivity|]. cbn [bind Z.ltb Z.compare]. destruct (Z.ltb_spec 0 n); [|lia]. reflexivity.
Qed.
(** a NaN score: [None] compares false with everything; two of them keep every later score out *)
Definition dgt (a b : option Z) : bool := match a, b with Some x, Some y => x >? y | _, _ => false end.
Definition dle (a b : option Z) : bool := match a, b with Some x, Some y => x <=? y | _, _ => false end.
Theorem C51_nan_finding : run dgt dle (Some 0, 0) (top_new (Some 0, 0) 2) [Add None 1; Add None 2; Add (Some 5) 3; Get] = Ok [[(None, 1); (None, 2)]].
Proof. reflexivity. Qed.

Print Assumptions C51_top. Print Assumptions C51_small_finding. Print Assumptions C51_setSize_finding. Print Assumptions C51_nan_finding.
