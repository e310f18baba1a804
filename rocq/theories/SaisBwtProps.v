(** C65: saisxx_bwt (include/sais.hxx) computes the Burrows-Wheeler transform, and the transform determines the text.
    Specification.  The rows of the sorted matrix of "T followed by an end mark smaller than every symbol" are the empty suffix
    and then the suffixes of T in the order of its suffix array; each row contributes the symbol before its suffix,
    the row of the whole text the end mark.  The result is the number of that row, and U holds the other symbols in order. *)
Require Import Verif.Common Verif.Cnt Verif.WaveletProps Verif.FmCore Verif.SaisModel Verif.SaisType Verif.SaisInduce Verif.SaisRefine Verif.SaisKeys Verif.SaisStage Verif.SaisLms Verif.SaisSort Verif.SaisBwt Verif.SaisProps.
From Coq Require Import Permutation.
Ltac Zify.zify_post_hook ::= idtac.

(** the symbol before position p, None (the end mark) before the whole text *)
Definition prior (T : list Z) (p : Z) : option Z := if p =? 0 then None else Some (at_ T (p - 1)).
Definition symbols (l : list (option Z)) : list Z := flat_map (fun o => match o with Some c => [c] | None => [] end) l.
Definition is_bwt (T : list Z) (pidx : Z) (U : list Z) : Prop :=
  exists sa, is_suffix_array T sa /\ let column := map (prior T) (zlen T :: sa) in
    0 <= pidx /\ nth_error column (Z.to_nat pidx) = Some None /\ U = symbols column.

(** ** proofs *)
Lemma copy_out_ok A : forall cnt i d U, 0 <= i -> 0 <= d -> i + Z.of_nat cnt <= zlen A -> i + d + Z.of_nat cnt <= zlen U ->
  exists U', copy_out cnt i d A U = Ok U' /\ zlen U' = zlen U /\ forall t, 0 <= t -> at_ U' t = if (i + d <=? t) && (t <? i + d + Z.of_nat cnt) then at_ A (t - d) else at_ U t.
Proof.
  induction cnt as [|m IH]; intros i d U Hi Hd HA HU.
  - exists U. split; auto. split; auto. intros t Ht. destruct (Z.leb_spec (i + d) t), (Z.ltb_spec t (i + d + Z.of_nat 0)); cbn [andb]; auto; lia.
  - cbn [copy_out]. rewrite rd_at by lia. cbn [bind]. destruct (wr_at U (i + d) (at_ A i)) as (U1 & -> & L1 & A1); [lia|]. cbn [bind]. destruct (IH (i + 1) d U1) as (U2 & -> & L2 & A2); try lia. exists U2. split; auto. split; [lia|]. intros t Ht. rewrite A2 by lia. rewrite A1 by lia.
    destruct (Z.leb_spec (i + d) t), (Z.ltb_spec t (i + d + Z.of_nat (S m))), (Z.leb_spec (i + 1 + d) t), (Z.ltb_spec t (i + 1 + d + Z.of_nat m)), (Z.eqb_spec t (i + d)); cbn [andb]; auto; try lia. subst t. f_equal. lia.
Qed.

Definition ints (n : Z) : list Z := map Z.of_nat (seq 0 (Z.to_nat n)).
Definition tab (O : Z -> Z) (n : Z) : list Z := map O (ints n).
Lemma zlen_tab O n : 0 <= n -> zlen (tab O n) = n.
Proof. intros H. unfold tab, ints, zlen. rewrite !map_length, seq_length. lia. Qed.
Lemma at_tab O n t : 0 <= t < n -> at_ (tab O n) t = O t.
Proof.
  intros H. unfold at_, tab, ints. rewrite map_map. rewrite (nth_indep _ 0 (O (Z.of_nat 0))) by (rewrite map_length, seq_length; lia). rewrite (map_nth (fun x => O (Z.of_nat x))). rewrite seq_nth by lia. f_equal. lia.
Qed.

Lemma symbols_app a b : symbols (a ++ b) = symbols a ++ symbols b.
Proof. unfold symbols. apply flat_map_app. Qed.
Lemma symbols_some T l : Forall (fun p => p <> 0) l -> symbols (map (prior T) l) = map (fun p => at_ T (p - 1)) l.
Proof. induction 1 as [|p l Hp _ IH]; auto. cbn [map]. unfold symbols in *. cbn [flat_map]. unfold prior at 1. destruct (Z.eqb_spec p 0); [lia|]. cbn [app]. f_equal. auto. Qed.
Lemma at_map (f : Z -> Z) l t : 0 <= t < zlen l -> at_ (map f l) t = f (at_ l t).
Proof. intros H. unfold at_. rewrite (nth_indep _ 0 (f 0)) by (rewrite map_length; unfold zlen in H; lia). apply map_nth. Qed.
Lemma split_at (l : list Z) i : 0 <= i < zlen l -> l = firstn (Z.to_nat i) l ++ at_ l i :: skipn (Z.to_nat (i + 1)) l.
Proof.
  intros H. rewrite <- (firstn_skipn (Z.to_nat i) l) at 1. f_equal. change (skipn (Z.to_nat i) l) with (suffix l i). rewrite suffix_at by auto. reflexivity.
Qed.

Lemma In_at (l : list Z) x : In x l -> exists i, 0 <= i < zlen l /\ at_ l i = x.
Proof. intros H. apply (In_nth _ _ 0) in H. destruct H as (i & Hi & <-). exists (Z.of_nat i). unfold at_. rewrite Nat2Z.id. split; auto. unfold zlen. lia. Qed.

Lemma bwt_listed T sa pidx U : 1 <= zlen T -> zlen sa = zlen T -> is_suffix_array T sa -> 0 <= pidx < zlen T -> at_ sa pidx = 0 -> (forall t, 0 <= t < zlen T -> at_ sa t = 0 -> t = pidx) -> zlen U = zlen T ->
  at_ U 0 = at_ T (zlen T - 1) -> (forall t, 0 <= t < pidx -> at_ U (t + 1) = at_ T (at_ sa t - 1)) -> (forall t, pidx < t < zlen T -> at_ U t = at_ T (at_ sa t - 1)) -> is_bwt T (pidx + 1) U.
Proof.
  intros Hn L SA Hp E0 Un LU U0 U1 U2. exists sa. split; auto. cbn zeta. split; [lia|]. split.
  - replace (Z.to_nat (pidx + 1)) with (S (Z.to_nat pidx)) by lia. cbn [map nth_error]. assert (nth_error sa (Z.to_nat pidx) = Some 0) as N. { rewrite <- E0 at 1. unfold at_. apply nth_error_nth'. unfold zlen in *. lia. } rewrite (map_nth_error (prior T) _ _ N). reflexivity.
  - cbn [map]. change (symbols (prior T (zlen T) :: map (prior T) sa)) with ((match prior T (zlen T) with Some c => [c] | None => [] end) ++ symbols (map (prior T) sa)). unfold prior at 1. destruct (Z.eqb_spec (zlen T) 0); [lia|].
    rewrite (split_at sa pidx) by lia. rewrite map_app, symbols_app. cbn [map]. change (symbols (prior T (at_ sa pidx) :: map (prior T) (skipn (Z.to_nat (pidx + 1)) sa))) with ((match prior T (at_ sa pidx) with Some c => [c] | None => [] end) ++ symbols (map (prior T) (skipn (Z.to_nat (pidx + 1)) sa))).
    rewrite E0. unfold prior at 2. cbn [Z.eqb app].
    assert (zlen (firstn (Z.to_nat pidx) sa) = pidx) as L1 by (apply zlen_firstn; lia). assert (zlen (skipn (Z.to_nat (pidx + 1)) sa) = zlen T - (pidx + 1)) as L2 by (rewrite zlen_skipn; lia).
    rewrite !symbols_some.
    2:{ apply Forall_forall. intros x Hx. apply In_at in Hx. destruct Hx as (i & Hi & <-). rewrite L2 in Hi. rewrite at_skipn by lia. intros F. apply Un in F; lia. }
    2:{ apply Forall_forall. intros x Hx. apply In_at in Hx. destruct Hx as (i & Hi & <-). rewrite L1 in Hi. rewrite at_firstn by lia. intros F. apply Un in F; lia. }
    set (f := fun p => at_ T (p - 1)). set (a := firstn (Z.to_nat pidx) sa) in *. set (b := skipn (Z.to_nat (pidx + 1)) sa) in *.
    assert (zlen (map f a) = pidx) as L1' by (unfold zlen in *; rewrite map_length; lia). assert (zlen (map f b) = zlen T - (pidx + 1)) as L2' by (unfold zlen in *; rewrite map_length; lia).
    assert (zlen (at_ T (zlen T - 1) :: map f a ++ map f b) = zlen T) as LL. { change (at_ T (zlen T - 1) :: map f a ++ map f b) with ([at_ T (zlen T - 1)] ++ map f a ++ map f b). rewrite !zlen_app, L1', L2'. change (zlen [at_ T (zlen T - 1)]) with 1. lia. }
    apply at_ext; [lia|]. intros i Hi. destruct (Z.eq_dec i 0) as [-> |]; [rewrite at_cons0; auto|]. rewrite at_cons1 by lia. destruct (Z_lt_le_dec (i - 1) pidx).
    + rewrite at_app1 by lia. rewrite at_map by lia. unfold a, f. rewrite at_firstn by lia. rewrite <- U1 by lia. f_equal. lia.
    + rewrite at_app2 by lia. rewrite L1'. rewrite at_map by lia. unfold b, f. rewrite at_skipn by lia. rewrite U2 by lia. f_equal. f_equal. f_equal. lia.
Qed.

(** saisxx_bwt either stores the transform in U and returns the row of the end mark, or returns -2, and that only if an allocation failed.
    It never reads or writes outside T, U, A and its bucket arrays, and terminates. *)
Theorem C65_bwt : forall alloc T U A k, 0 < k < 2 ^ 31 -> zlen T < 2 ^ 31 -> over k T -> zlen U = zlen T -> zlen A = zlen T ->
  (exists pidx U', saisxx_bwt alloc T U A (zlen T) k = Ok (pidx, U') /\ is_bwt T pidx U') \/
  (saisxx_bwt alloc T U A (zlen T) k = Ok (-2, U) /\ exists d s, alloc d s = false).
Proof.
  intros alloc T U A k Hk _ F LU LA. pose proof (zlen_nonneg T) as N0. unfold saisxx_bwt. destruct (Z.ltb_spec (zlen T) 0); [lia|]. destruct (Z.leb_spec k 0); [lia|]. cbn [orb].
  destruct (Z.leb_spec (zlen T) 1) as [L1|L1].
  - left. destruct (Z.eqb_spec (zlen T) 1) as [E|E].
    + rewrite rd_at by lia. cbn [bind]. destruct (wr_at U 0 (at_ T 0)) as (U' & -> & L' & A'); [lia|]. cbn [bind]. exists (zlen T), U'. split; auto. rewrite E. apply (bwt_listed T [0] 0 U'); auto; try lia.
      * apply listed_sa; [auto|]. split; [|split].
        -- intros t Ht. replace t with 0 by lia. cbn. lia.
        -- intros p Hp. exists 0. split; [lia|]. cbn. lia.
        -- intros t u Ht Hu. lia.
      * rewrite A' by lia. rewrite Z.eqb_refl. f_equal. lia.
    + exists (zlen T), U. split; auto. assert (T = []) as -> by (destruct T; auto; rewrite zlen_cons in *; pose proof (zlen_nonneg T); lia). change (zlen []) with 0 in LU. assert (U = []) as -> by (destruct U; auto; rewrite zlen_cons in LU; pose proof (zlen_nonneg U); lia).
      exists []. split; [split; [constructor|cbn; lia]|]. cbn. split; [lia|]. auto.
  - assert (forall p, 0 <= p < zlen T -> 0 <= at_ T p < k) as HT by (apply over_at; auto). destruct (length T) as [|f] eqn:Ef; [unfold zlen in L1; lia|].
    set (R := fun SA pidx => exists O, 0 <= pidx < zlen T /\ O pidx = 0 /\ (forall t, 0 <= t < zlen T -> t <> pidx -> at_ SA t = at_ T (O t - 1)) /\ (forall t, 0 <= t < zlen T -> 0 <= O t < zlen T) /\ (forall p, 0 <= p < zlen T -> exists t, 0 <= t < zlen T /\ O t = p) /\ (forall t u, 0 <= t < u -> u < zlen T -> suf_lt T (O t) (O u))).
    destruct (suffixsort_gen f alloc 0 true R T A 0 k ltac:(lia) HT ltac:(lia) ltac:(lia)) as [(A' & pidx & -> & LA' & (O & Hp & Op & AO & RO & SO & LO))|[-> G]].
    + intros RT mem' fs' k' H1 H2 H3 H4. apply suffixsort_ok; auto; unfold zlen in *; lia.
    + intros alias SA C G1 G2 G3 G4 G5. destruct (computeBWT_ok T k ltac:(lia) HT alias SA C (suf_lt T) (suf_lt T) G1 G2 G3 G4 (inducible_suffix T k ltac:(lia) HT) G5) as (SA' & C' & B' & pidx & O & X1 & X2 & X3 & X4 & X5). exists SA', C', B', pidx. split; auto. split; auto. split; auto. split; auto. exists O. auto.
    + left. rewrite firstn_all2 in AO by (unfold zlen in *; lia). destruct (Z.leb_spec 0 pidx); [|lia]. rewrite rd_at by lia. cbn [bind]. destruct (wr_at U 0 (at_ T (zlen T - 1))) as (U1 & -> & LU1 & AU1); [lia|]. cbn [bind].
      destruct (copy_out_ok A' (Z.to_nat pidx) 0 1 U1) as (U2 & -> & LU2 & AU2); try lia. cbn [bind]. destruct (copy_out_ok A' (Z.to_nat (zlen T - (pidx + 1))) (pidx + 1) 0 U2) as (U3 & -> & LU3 & AU3); try lia. cbn [bind].
      exists (pidx + 1), U3. split; auto. destruct (onto_inj O (zlen T) ltac:(lia) SO) as [_ Inj]. apply (bwt_listed T (tab O (zlen T)) pidx U3); try lia.
      * rewrite zlen_tab; lia.
      * apply listed_sa; [rewrite zlen_tab; lia|]. split; [intros t Ht; rewrite at_tab; auto|]. split.
        -- intros p Hq. destruct (SO p Hq) as (t & Ht & E). exists t. rewrite at_tab; auto.
        -- intros t u Htu Hu. rewrite !at_tab by lia. apply LO; auto.
      * rewrite at_tab; auto.
      * intros t Ht E. rewrite at_tab in E by auto. apply Inj; auto. lia.
      * rewrite AU3 by lia. destruct (Z.leb_spec (pidx + 1 + 0) 0); [lia|]. cbn [andb]. rewrite AU2 by lia. destruct (Z.leb_spec (0 + 1) 0); [lia|]. cbn [andb]. rewrite AU1 by lia. auto.
      * intros t Ht. rewrite at_tab by lia. rewrite AU3 by lia. destruct (Z.leb_spec (pidx + 1 + 0) (t + 1)); [lia|]. cbn [andb]. rewrite AU2 by lia. destruct (Z.leb_spec (0 + 1) (t + 1)), (Z.ltb_spec (t + 1) (0 + 1 + Z.of_nat (Z.to_nat pidx))); try lia. cbn [andb]. replace (t + 1 - 1) with t by lia. apply AO; lia.
      * intros t Ht. rewrite at_tab by lia. rewrite AU3 by lia. destruct (Z.leb_spec (pidx + 1 + 0) t), (Z.ltb_spec t (pidx + 1 + 0 + Z.of_nat (Z.to_nat (zlen T - (pidx + 1))))); try lia. cbn [andb]. replace (t - 0) with t by lia. apply AO; lia.
    + right. auto.
Qed.
(** with enough memory it always succeeds *)
Theorem C65_success : forall T U A k, 0 < k < 2 ^ 31 -> zlen T < 2 ^ 31 -> over k T -> zlen U = zlen T -> zlen A = zlen T ->
  exists pidx U', saisxx_bwt (fun _ _ => true) T U A (zlen T) k = Ok (pidx, U') /\ is_bwt T pidx U'.
Proof. intros T U A k Hk HT F LU LA. destruct (C65_bwt (fun _ _ => true) T U A k Hk HT F LU LA) as [H|[_ (d & s & E)]]; auto. discriminate. Qed.
Theorem C65_refused : forall alloc T U A n k, n < 0 \/ k <= 0 -> saisxx_bwt alloc T U A n k = Ok (-1, U).
Proof. intros alloc T U A n k H. unfold saisxx_bwt. destruct (Z.ltb_spec n 0), (Z.leb_spec k 0); auto; lia. Qed.

(** ** the transform determines the text *)
Lemma lex_mark a : forall b, lex_lt a b -> lex_lt (map Z.succ a ++ [0]) (map Z.succ b ++ [0]) \/ exists x, In x (a ++ b) /\ x < 0.
Proof.
  induction a as [|x a IH]; intros [|y b] H; try contradiction.
  - destruct (Z_lt_le_dec y 0); [right; exists y; split; [left; auto|auto]|]. left. cbn. lia.
  - cbn [lex_lt] in H. destruct H as [H|[-> H]]; [left; cbn; left; lia|]. destruct (IH b H) as [G|(z & Hz & G)]; [left; cbn; right; auto|]. right. exists z. split; auto. apply in_app_or in Hz. cbn [app]. right. apply in_or_app. destruct Hz; auto. right. right. auto.
Qed.
Definition marked (T : list Z) : list Z := map Z.succ T ++ [0].
Lemma marked_suffix T p : 0 <= p <= zlen T -> suffix (marked T) p = marked (suffix T p).
Proof. intros H. unfold marked, suffix. rewrite skipn_app. rewrite map_length. replace (Z.to_nat p - length T)%nat with 0%nat by (unfold zlen in H; lia). rewrite skipn_map. reflexivity. Qed.
Lemma marked_sa T sa k : over k T -> is_suffix_array T sa -> is_suffix_array (marked T) (zlen T :: sa).
Proof.
  intros F [Pm Lx]. assert (zlen sa = zlen T) as L. { apply Permutation_length in Pm. rewrite map_length, seq_length in Pm. unfold zlen. lia. }
  assert (forall t, 0 <= t < zlen T -> 0 <= at_ sa t < zlen T) as R. { intros t Ht. assert (In (at_ sa t) sa) as I1 by (apply at_In; lia). apply (Permutation_in _ Pm) in I1. apply in_map_iff in I1. destruct I1 as (i & <- & Hi). apply in_seq in Hi. unfold zlen. lia. }
  assert (forall a, incl a T -> forall x, In x a -> 0 <= x) as Pos. { intros a Ia x Hx. apply Ia in Hx. unfold over in F. rewrite Forall_forall in F. apply F in Hx. lia. }
  assert (forall p, incl (suffix T p) T) as Inc. { intros p x Hx. unfold suffix in Hx. rewrite <- (firstn_skipn (Z.to_nat p) T). apply in_or_app. auto. }
  split.
  - unfold marked. rewrite app_length, map_length. cbn [length]. rewrite Nat.add_1_r. rewrite seq_S, map_app. cbn [map plus]. fold (zlen T). apply Permutation_cons_app. rewrite app_nil_r. auto.
  - intros i j Hij Hj. unfold marked in Hj. rewrite zlen_app in Hj. unfold zlen in Hj at 1. rewrite map_length in Hj. fold (zlen T) in Hj. change (zlen [0]) with 1 in Hj. rewrite (at_cons1 _ _ j) by lia.
    rewrite (marked_suffix T (at_ sa (j - 1))) by (pose proof (R (j - 1)); lia). destruct (Z.eq_dec i 0) as [-> |].
    + rewrite at_cons0. rewrite marked_suffix by lia. rewrite suffix_end by lia. rewrite (suffix_at T) by (apply R; lia). cbn. left. specialize (Pos T (fun x H => H) (at_ T (at_ sa (j - 1)))). specialize (Pos ltac:(apply at_In; apply R; lia)). lia.
    + rewrite at_cons1 by lia. rewrite marked_suffix by (pose proof (R (i - 1)); lia). destruct (lex_mark _ _ (Lx (i - 1) (j - 1) ltac:(lia) ltac:(lia))) as [G|(x & Hx & G)]; auto. exfalso. apply in_app_or in Hx. destruct Hx as [Hx|Hx]; apply (Pos _ (Inc _)) in Hx; lia.
Qed.
(** the last column with the mark 0 is determined by U and the row of the mark *)
Definition unmark (o : option Z) : Z := match o with Some c => c + 1 | None => 0 end.
Lemma column_eq T T' sa sa' i : zlen sa = zlen sa' -> zlen T = zlen sa -> zlen T' = zlen sa' ->
  nth_error (map (prior T) (zlen T :: sa)) i = Some None -> nth_error (map (prior T') (zlen T' :: sa')) i = Some None ->
  (forall c, count_occ Z.eq_dec (zlen T :: sa) 0 = c -> c = 1%nat) -> (forall c, count_occ Z.eq_dec (zlen T' :: sa') 0 = c -> c = 1%nat) ->
  symbols (map (prior T) (zlen T :: sa)) = symbols (map (prior T') (zlen T' :: sa')) -> map (prior T) (zlen T :: sa) = map (prior T') (zlen T' :: sa').
Proof.
  intros L1 L2 L3. set (l := zlen T :: sa). set (l' := zlen T' :: sa'). assert (length l = length l') as LL by (unfold l, l', zlen in *; cbn [length]; lia). clearbody l l'. clear L1 L2 L3 sa sa'.
  revert l' LL i. induction l as [|x l IH]; intros [|y l'] LL i N N' C C' E; auto; try discriminate. cbn [map] in *. destruct i as [|i].
  - cbn [nth_error] in N, N'. unfold prior at 1 in N. unfold prior at 1 in N'. destruct (Z.eqb_spec x 0) as [-> |]; [|discriminate]. destruct (Z.eqb_spec y 0) as [-> |]; [|discriminate].
    specialize (C _ eq_refl). specialize (C' _ eq_refl). cbn [count_occ] in C, C'. destruct (Z.eq_dec 0 0); [|lia]. injection C as C. injection C' as C'.
    assert (forall l, count_occ Z.eq_dec l 0 = 0%nat -> Forall (fun p => p <> 0) l) as FF. { intros m Hm. apply Forall_forall. intros z Hz ->. apply (count_occ_In Z.eq_dec) in Hz. lia. }
    f_equal. change (symbols (map (prior T) l) = symbols (map (prior T') l')) in E. clear - E C C' FF LL. assert (forall T l, Forall (fun p => p <> 0) l -> map (prior T) l = map Some (symbols (map (prior T) l))) as G. { intros S m Hm. rewrite symbols_some by auto. rewrite map_map. apply map_ext_in. intros z Hz. rewrite Forall_forall in Hm. apply Hm in Hz. unfold prior. destruct (Z.eqb_spec z 0); [lia|auto]. }
    rewrite (G T l), (G T' l') by (apply FF; auto). congruence.
  - cbn [nth_error] in N, N'. assert (x <> 0) as Nx. { intros ->. specialize (C _ eq_refl). cbn [count_occ] in C. destruct (Z.eq_dec 0 0); [|lia]. injection C as C. apply nth_error_In in N. apply in_map_iff in N. destruct N as (z & Ez & Hz). unfold prior in Ez. destruct (Z.eqb_spec z 0); [|discriminate]. subst z. apply (count_occ_In Z.eq_dec) in Hz. lia. }
    assert (y <> 0) as Ny. { intros ->. specialize (C' _ eq_refl). cbn [count_occ] in C'. destruct (Z.eq_dec 0 0); [|lia]. injection C' as C'. apply nth_error_In in N'. apply in_map_iff in N'. destruct N' as (z & Ez & Hz). unfold prior in Ez. destruct (Z.eqb_spec z 0); [|discriminate]. subst z. apply (count_occ_In Z.eq_dec) in Hz. lia. }
    cbn [symbols flat_map] in E. unfold prior at 1 in E. unfold prior at 2 in E. unfold prior at 1. unfold prior at 2. destruct (Z.eqb_spec x 0); [lia|]. destruct (Z.eqb_spec y 0); [lia|]. cbn [app] in E. injection E as E1 E2. rewrite E1. f_equal. apply (IH l' ltac:(cbn [length] in LL; lia) i); auto.
    + intros c Hc. apply C. cbn [count_occ]. destruct (Z.eq_dec x 0); [lia|auto].
    + intros c Hc. apply C'. cbn [count_occ]. destruct (Z.eq_dec y 0); [lia|auto].
Qed.
Lemma one_zero T sa : is_suffix_array T sa -> count_occ Z.eq_dec (zlen T :: sa) 0 = 1%nat.
Proof.
  intros [Pm _]. cbn [count_occ]. rewrite (proj1 (Permutation_count_occ Z.eq_dec _ _) Pm 0). unfold zlen. destruct (length T) as [|m] eqn:E; [reflexivity|]. destruct (Z.eq_dec (Z.of_nat (S m)) 0); [lia|]. cbn [seq map count_occ Z.of_nat]. destruct (Z.eq_dec 0 0); [|lia]. f_equal. apply count_occ_not_In. intros H. apply in_map_iff in H. destruct H as (i & Hi & Hs). apply in_seq in Hs. lia.
Qed.
Lemma symbols_length T l : length (symbols (map (prior T) l)) = (length l - count_occ Z.eq_dec l 0%Z)%nat.
Proof.
  induction l as [|x l IH]; auto. cbn [map symbols flat_map count_occ length]. rewrite app_length. fold (symbols (map (prior T) l)). rewrite IH. pose proof (count_occ_bound Z.eq_dec 0%Z l) as B. unfold prior. destruct (Z.eqb_spec x 0), (Z.eq_dec x 0); cbn [length]; lia.
Qed.
Lemma bwt_column T sa : zlen sa = zlen T -> (forall p, In p sa -> 0 <= p < zlen T) -> bwt (map Z.succ T) (zlen T :: sa) = map unmark (map (prior T) (zlen T :: sa)).
Proof.
  intros L R. unfold bwt. rewrite map_map. apply map_ext_in. intros p Hp. assert (0 <= p <= zlen T) as Rp. { destruct Hp as [<-|Hp]; [pose proof (zlen_nonneg T); lia|]. apply R in Hp. lia. }
  assert (zlen (map Z.succ T) = zlen T) as LM by (unfold zlen; rewrite map_length; auto). assert (zlen (map Z.succ T ++ [0]) = zlen T + 1) as LV by (rewrite zlen_app, LM; reflexivity).
  unfold prev_char, prior, unmark. rewrite LV. destruct (Z.eqb_spec p 0) as [-> |]; [change (0 <? 0) with false; cbn iota|destruct (Z.ltb_spec 0 p); [|lia]].
  - rewrite at_app2 by lia. rewrite LM. replace (zlen T + 1 - 1 - zlen T) with 0 by lia. reflexivity.
  - rewrite at_app1 by lia. rewrite at_map by lia. lia.
Qed.
Lemma bwt_perm T sa : is_suffix_array T sa -> zlen sa = zlen T -> (forall p, In p sa -> 0 <= p < zlen T) -> Permutation (bwt (map Z.succ T) (zlen T :: sa)) (marked T).
Proof.
  intros [Pm _] L R. rewrite bwt_column by auto. rewrite map_map. apply (Permutation_trans (l' := map (fun p => unmark (prior T p)) (0 :: map (fun i => Z.of_nat (S i)) (seq 0 (length T))))).
  - apply Permutation_map. apply (Permutation_trans (l' := map Z.of_nat (seq 0 (S (length T))))).
    + rewrite seq_S, map_app. cbn [map plus]. fold (zlen T). apply Permutation_cons_app. rewrite app_nil_r. auto.
    + cbn [seq map Z.of_nat]. rewrite <- seq_shift, map_map. auto.
  - cbn [map]. change (unmark (prior T 0)) with 0. rewrite map_map. replace (map (fun x => unmark (prior T (Z.of_nat (S x)))) (seq 0 (length T))) with (map Z.succ T); [apply Permutation_cons_append|].
    symmetry. apply at_ext; [unfold zlen; rewrite !map_length, seq_length; auto|]. intros i Hi. unfold zlen in Hi. rewrite map_length, seq_length in Hi. rewrite at_map by (unfold zlen; lia).
    unfold at_ at 1. rewrite (nth_indep _ 0 (unmark (prior T (Z.of_nat (S 0))))) by (rewrite map_length, seq_length; lia). rewrite (map_nth (fun x => unmark (prior T (Z.of_nat (S x))))). rewrite seq_nth by lia. unfold prior, unmark. destruct (Z.eqb_spec (Z.of_nat (S (0 + Z.to_nat i))) 0); [lia|]. unfold Z.succ. f_equal. f_equal. lia.
Qed.
Lemma sa_facts T sa : is_suffix_array T sa -> zlen sa = zlen T /\ forall p, In p sa -> 0 <= p < zlen T.
Proof.
  intros [Pm _]. split; [apply Permutation_length in Pm; rewrite map_length, seq_length in Pm; unfold zlen; lia|]. intros p Hp. apply (Permutation_in _ Pm) in Hp. apply in_map_iff in Hp. destruct Hp as (i & <- & Hi). apply in_seq in Hi. unfold zlen. lia.
Qed.
Lemma over_succ k T : over k T -> Forall (fun x => 1 <= x) (map Z.succ T).
Proof. intros F. apply Forall_forall. intros x Hx. apply in_map_iff in Hx. destruct Hx as (y & <- & Hy). unfold over in F. rewrite Forall_forall in F. apply F in Hy. lia. Qed.

Theorem C65_lossless : forall k k' T T' pidx U, over k T -> over k' T' -> is_bwt T pidx U -> is_bwt T' pidx U -> T = T'.
Proof.
  intros k k' T T' pidx U F F' (sa & S & _ & N & E) (sa' & S' & _ & N' & E'). destruct (sa_facts T sa S) as [L R]. destruct (sa_facts T' sa' S') as [L' R'].
  assert (zlen T = zlen T') as LT. { pose proof (symbols_length T (zlen T :: sa)) as Q. pose proof (symbols_length T' (zlen T' :: sa')) as Q'. rewrite <- E in Q. rewrite <- E' in Q'. rewrite one_zero in Q, Q' by auto. cbn [length] in Q, Q'. unfold zlen in *. lia. }
  assert (map (prior T) (zlen T :: sa) = map (prior T') (zlen T' :: sa')) as CE. { apply (column_eq T T' sa sa' (Z.to_nat pidx)); auto; try lia; try congruence; intros c <-; apply one_zero; auto. }
  pose proof (bwt_column T sa L R) as B. pose proof (bwt_column T' sa' L' R') as B'. rewrite <- CE, <- B in B'.
  pose proof (marked_sa T sa k F S) as M. pose proof (marked_sa T' sa' k' F' S') as M'. pose proof (over_succ k T F) as G. pose proof (over_succ k' T' F') as G'.
  assert (forall c, occLt c (marked T) = occLt c (marked T')) as OL. { intros c. unfold occLt. rewrite <- (filter_perm _ _ _ (bwt_perm T sa S L R)), <- (filter_perm _ _ _ (bwt_perm T' sa' S' L' R')), B'. auto. }
  assert (zlen (marked T) = zlen T + 1 /\ zlen (marked T') = zlen T + 1) as [LV LV'] by (unfold marked; rewrite !zlen_app; unfold zlen in *; rewrite !map_length; cbn [length]; lia).
  assert (forall m, (Z.of_nat m <= zlen T) -> (exists r, 0 <= r < zlen T + 1 /\ at_ (zlen T :: sa) r = zlen T - Z.of_nat m /\ at_ (zlen T' :: sa') r = zlen T - Z.of_nat m) /\ forall q, zlen T - Z.of_nat m <= q < zlen T -> at_ (marked T) q = at_ (marked T') q) as W.
  { induction m as [|m IH]; intros Hm; [split; [|intros; lia]; exists 0; rewrite !at_cons0; pose proof (zlen_nonneg T); lia|]. destruct IH as ((r & Hr & A & A') & Eq); [lia|].
    destruct (lf (map Z.succ T) (zlen T :: sa) G M r) as (Hc & Hj & J & K); [fold (marked T); lia|lia|]. destruct (lf (map Z.succ T') (zlen T' :: sa') G' M' r) as (Hc' & Hj' & J' & K'); [fold (marked T'); lia|lia|].
    rewrite B' in *. fold (marked T) in *. fold (marked T') in *. rewrite <- OL in *. split.
    - eexists. split; [rewrite LV in Hj; exact Hj|]. rewrite J, J'. lia.
    - intros q Hq. destruct (Z.eq_dec q (zlen T - Z.of_nat (Datatypes.S m))) as [-> |]; [|apply Eq; lia]. replace (zlen T - Z.of_nat (Datatypes.S m)) with (at_ (zlen T :: sa) r - 1) at 1 by lia. rewrite K. rewrite <- K'. f_equal. lia. }
  pose proof (zlen_nonneg T). destruct (W (Z.to_nat (zlen T)) ltac:(lia)) as [_ Eq]. apply at_ext; auto. intros i Hi. specialize (Eq i ltac:(lia)). unfold marked in Eq. rewrite !at_app1 in Eq by (unfold zlen in *; rewrite map_length; lia). rewrite !at_map in Eq by lia. lia.
Qed.
(** two runs with the same result had the same text *)
Theorem C65_injective : forall alloc alloc' k k' T T' U U' A A' pidx V, 0 < k < 2 ^ 31 -> 0 < k' < 2 ^ 31 -> zlen T < 2 ^ 31 -> zlen T' < 2 ^ 31 -> over k T -> over k' T' ->
  zlen U = zlen T -> zlen A = zlen T -> zlen U' = zlen T' -> zlen A' = zlen T' -> 0 <= pidx ->
  saisxx_bwt alloc T U A (zlen T) k = Ok (pidx, V) -> saisxx_bwt alloc' T' U' A' (zlen T') k' = Ok (pidx, V) -> T = T'.
Proof.
  intros alloc alloc' k k' T T' U U' A A' pidx V Hk Hk' H1 H2 F F' L1 L2 L3 L4 Hp E E'.
  destruct (C65_bwt alloc T U A k) as [(q & W & X & B)|[X _]]; auto; rewrite E in X; [|injection X; lia]. injection X as <- <-.
  destruct (C65_bwt alloc' T' U' A' k') as [(q & W & X & B')|[X _]]; auto; rewrite E' in X; [|injection X; lia]. injection X as <- <-. apply (C65_lossless k k' T T' pidx V); auto.
Qed.

(** ** non-vacuity *)
Example C65_nonvacuous : 0 < 256 < 2 ^ 31 /\ zlen banana < 2 ^ 31 /\ over 256 banana /\ zlen (repeat 0 6) = zlen banana /\ zlen (repeat 7 6) = zlen banana.
Proof. split; [lia|]. split; [reflexivity|]. split; [repeat constructor; lia|split; reflexivity]. Qed.
(** banana: annb$aa, the mark in row 4 *)
Example C65_demo : saisxx_bwt (fun _ _ => true) banana (repeat 0 6) (repeat 7 6) 6 128 = Ok (4, [97; 110; 110; 98; 97; 97]) /\
  saisxx_bwt (fun _ _ => true) deep (repeat 9 20) (repeat 7 20) 20 3 = Ok (20, [1; 1; 1; 2; 2; 0; 2; 2; 2; 2; 1; 2; 2; 1; 1; 1; 0; 1; 1; 1]) /\
  saisxx_bwt (fun d s => s) banana (repeat 0 6) (repeat 7 6) 6 128 = Ok (-2, repeat 0 6).
Proof. split; [vm_compute; reflexivity|]. split; vm_compute; reflexivity. Qed.

Print Assumptions C65_bwt.
Print Assumptions C65_success.
Print Assumptions C65_refused.
Print Assumptions C65_lossless.
Print Assumptions C65_injective.
