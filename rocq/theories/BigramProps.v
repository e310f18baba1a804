(** C107: the pair statistics of csucvector_util::Bigram (include/cybozu/csucvector.hpp) *)
Require Import Verif.Common Verif.SucModel Verif.CSucModel Verif.BigramModel.
Require Import Permutation Sorted.
Import ListNotations.
Local Open Scope Z_scope.

(** ** Specification *)
(** how often y follows x immediately *)
Fixpoint follows (x y : Z) (s : list Z) : Z :=
  match s with
  | a :: (b :: _) as r => (if (a =? x) && (b =? y) then 1 else 0) + follows x y r
  | _ => 0
  end.
Fixpoint feed (b : bigram) (s : list Z) : res bigram :=
  match s with [] => Ok b | v :: s => let! b := bi_append b v in feed b s end.
Definition count (b : bigram) (x y : Z) : res Z := let! row := rd (bg_tbl b) x in rd row y.
(** the bits a code stands for: len bits of the word v, which is repeated if len > 64 *)
Definition bits (v len : Z) : list bool := map (fun i => Z.testbit v (Z.of_nat i mod 64)) (seq 0 (Z.to_nat len)).
(** codes as the table has them *)
Definition code (v len : Z) : Prop :=
  0 < len /\ 0 <= v < 2 ^ 64 /\ (len < 64 -> v < 2 ^ len) /\ (64 < len -> v = 0 \/ v = 2 ^ 64 - 1).

(** ** Counting *)
Definition shape (b : bigram) (n : nat) : Prop := length (bg_tbl b) = n /\ Forall (fun r => length r = n) (bg_tbl b).
Lemma rd_some {A} (l : list A) i x : 0 <= i -> nth_error l (Z.to_nat i) = Some x -> rd l i = Ok x.
Proof. intros H E. unfold rd. rewrite E. destruct (i <? 0) eqn:C; [lia|reflexivity]. Qed.
Lemma shape_rd b n x : shape b n -> 0 <= x < Z.of_nat n -> exists row, rd (bg_tbl b) x = Ok row /\ length row = n /\ nth_error (bg_tbl b) (Z.to_nat x) = Some row.
Proof.
  intros [L F] H. destruct (nth_error (bg_tbl b) (Z.to_nat x)) as [row|] eqn:E; [|apply nth_error_None in E; lia].
  exists row. split; [apply rd_some; [lia|exact E]|]. split; [|reflexivity]. rewrite Forall_forall in F. apply F. eapply nth_error_In; exact E.
Qed.
Lemma count_def b n x y : shape b n -> 0 <= x < Z.of_nat n -> 0 <= y < Z.of_nat n -> exists c, count b x y = Ok c.
Proof.
  intros S X Y. destruct (shape_rd b n x S X) as (row & R & L & _). unfold count. rewrite R. cbn [bind].
  destruct (nth_error row (Z.to_nat y)) as [c|] eqn:E; [|apply nth_error_None in E; lia]. exists c. apply rd_some; [lia|exact E].
Qed.
Lemma Forall_upd {A} (P : A -> Prop) l k x : Forall P l -> P x -> Forall P (upd l k x).
Proof.
  revert k. induction l as [|a l IH]; intros k F H; [destruct k; exact F|]. inversion F; subst. destruct k; cbn [upd]; constructor; auto.
Qed.
Lemma append_spec b n v : shape b n -> 0 <= v < Z.of_nat n -> 0 <= bg_prev b <= Z.of_nat n ->
  exists b', bi_append b v = Ok b' /\ shape b' n /\ bg_prev b' = v /\
    forall x y c, 0 <= x < Z.of_nat n -> 0 <= y < Z.of_nat n -> count b x y = Ok c ->
      count b' x y = Ok (if (bg_prev b =? x) && (v =? y) then (c + 1) mod 2 ^ 32 else c).
Proof.
  intros S V P. unfold bi_append. destruct S as [SL SF]. unfold tblNum, zlen. rewrite SL.
  destruct (Z.leb_spec (Z.of_nat n) v) as [C|_]; [lia|].
  destruct (Z.eqb_spec (bg_prev b) (Z.of_nat n)) as [E|N].
  - exists (mk_bg (bg_tbl b) v). split; [reflexivity|]. split; [split; assumption|]. split; [reflexivity|].
    intros x y c X Y C. destruct (Z.eqb_spec (bg_prev b) x); [lia|]. exact C.
  - destruct (shape_rd b n (bg_prev b) (conj SL SF)) as (row & R & L & NE); [lia|]. rewrite R. cbn [bind].
    destruct (nth_error row (Z.to_nat v)) as [old|] eqn:EV; [|apply nth_error_None in EV; lia].
    rewrite (rd_some row v old) by (auto; lia). cbn [bind].
    eexists. split; [reflexivity|]. split; [|split; [reflexivity|]].
    + split; cbn [bg_tbl]; [rewrite upd_length; exact SL|]. apply Forall_upd; [exact SF|]. rewrite upd_length. exact L.
    + intros x y c X Y C. unfold count in *. cbn [bg_tbl].
      destruct (shape_rd b n x (conj SL SF) X) as (rx & Rx & Lx & NEx). rewrite Rx in C. cbn [bind] in C.
      assert (PL : (Z.to_nat (bg_prev b) < length (bg_tbl b))%nat) by lia.
      destruct (Z.eqb_spec (bg_prev b) x) as [<-|NX]; cbn [andb].
      * rewrite R in Rx. injection Rx as <-.
        rewrite (rd_some _ (bg_prev b) (upd row (Z.to_nat v) ((old + 1) mod 2 ^ 32))); [|lia|apply nth_error_upd_eq; exact PL]. cbn [bind].
        assert (VL : (Z.to_nat v < length row)%nat) by lia.
        destruct (Z.eqb_spec v y) as [<-|NY].
        -- rewrite (rd_some row v old) in C by (auto; lia). injection C as <-.
           apply rd_some; [lia|]. apply nth_error_upd_eq; exact VL.
        -- destruct (nth_error row (Z.to_nat y)) as [cy|] eqn:EY; [|apply nth_error_None in EY; lia].
           rewrite (rd_some row y cy) in C by (auto; lia). injection C as <-. apply rd_some; [lia|]. rewrite nth_error_upd_ne; [exact EY|lia].
      * rewrite (rd_some _ x rx); [|lia|rewrite nth_error_upd_ne; [exact NEx|lia]]. cbn [bind]. exact C.
Qed.
Lemma feed_spec s : forall b n, shape b n -> Forall (fun v => 0 <= v < Z.of_nat n) s -> 0 <= bg_prev b <= Z.of_nat n ->
  exists b', feed b s = Ok b' /\ shape b' n /\ (bg_prev b' = last s (bg_prev b)) /\
    forall x y c, 0 <= x < Z.of_nat n -> 0 <= y < Z.of_nat n -> count b x y = Ok c -> 0 <= c < 2 ^ 32 ->
      count b' x y = Ok ((c + follows x y (if bg_prev b =? Z.of_nat n then s else bg_prev b :: s)) mod 2 ^ 32).
Proof.
  induction s as [|v s IH]; intros b n S F P.
  - exists b. split; [reflexivity|]. split; [exact S|]. split; [reflexivity|]. intros x y c X Y C B.
    rewrite C. f_equal. destruct (bg_prev b =? Z.of_nat n); cbn [follows]; rewrite Z.add_0_r, Z.mod_small by lia; reflexivity.
  - inversion F as [|? ? V F']; subst. destruct (append_spec b n v S V P) as (b1 & E1 & S1 & P1 & C1).
    destruct (IH b1 n S1 F') as (b' & E & S' & P' & C'); [rewrite P1; lia|].
    exists b'. cbn [feed]. rewrite E1. cbn [bind]. split; [exact E|]. split; [exact S'|]. split; [rewrite P', P1; destruct s; [reflexivity|]; cbn [last]; reflexivity || idtac|].
    { clear. revert v. induction s as [|w s IH]; intros v; [reflexivity|]. destruct s; [reflexivity|]. cbn [last] in *. apply (IH v). }
    intros x y c X Y C B. specialize (C1 x y c X Y C).
    rewrite (C' x y _ X Y C1); [|destruct ((bg_prev b =? x) && (v =? y)); [apply Z.mod_pos_bound; lia|exact B]].
    rewrite P1. destruct (Z.eqb_spec v (Z.of_nat n)) as [|_]; [lia|]. f_equal.
    destruct (Z.eqb_spec (bg_prev b) (Z.of_nat n)) as [EP|NP].
    + destruct (Z.eqb_spec (bg_prev b) x) as [EX|_]; [lia|]. reflexivity.
    + change (follows x y (bg_prev b :: v :: s)) with ((if (bg_prev b =? x) && (v =? y) then 1 else 0) + follows x y (v :: s)).
      destruct ((bg_prev b =? x) && (v =? y)); [|f_equal; lia]. rewrite Zplus_mod_idemp_l. f_equal. lia.
Qed.
Lemma fresh_shape t : shape (Bigram t) (length t).
Proof.
  split; cbn [Bigram bg_tbl]; [apply repeat_length|]. apply Forall_forall. intros r I. apply repeat_spec in I. subst. apply repeat_length.
Qed.
Lemma fresh_count t x y : 0 <= x < zlen t -> 0 <= y < zlen t -> count (Bigram t) x y = Ok 0.
Proof.
  intros X Y. unfold zlen in *. destruct (shape_rd _ _ x (fresh_shape t) X) as (row & R & _ & NE). unfold count. rewrite R. cbn [bind].
  apply nth_error_In in NE. cbn [Bigram bg_tbl] in NE. apply repeat_spec in NE. subst row. apply rd_some; [lia|]. apply nth_error_repeat. lia.
Qed.
(** after any sequence of codes the counter of (x, y) is how often y followed x, as a uint32_t *)
Theorem C107_count : forall t s, Forall (fun v => 0 <= v < zlen t) s ->
  exists b, feed (Bigram t) s = Ok b /\ forall x y, 0 <= x < zlen t -> 0 <= y < zlen t -> count b x y = Ok (follows x y s mod 2 ^ 32).
Proof.
  intros t s F. destruct (feed_spec s (Bigram t) (length t) (fresh_shape t) F) as (b & E & _ & _ & C); [cbn [Bigram bg_prev]; unfold zlen; lia|].
  exists b. split; [exact E|]. intros x y X Y. rewrite (C x y 0 X Y (fresh_count t x y X Y)) by lia.
  cbn [Bigram bg_prev]. unfold zlen. rewrite Z.eqb_refl. reflexivity.
Qed.
(** a code that is not in the table throws *)
Theorem C107_bad : forall t s v, Forall (fun v => 0 <= v < zlen t) s -> zlen t <= v -> feed (Bigram t) (s ++ [v]) = Exn.
Proof.
  intros t s v F V. destruct (feed_spec s (Bigram t) (length t) (fresh_shape t) F) as (b & E & [SL _] & _); [cbn [Bigram bg_prev]; unfold zlen; lia|].
  revert E SL. clear -V. generalize (Bigram t). induction s as [|w s IH]; intros b0 E SL.
  - injection E as ->. cbn [app feed]. unfold bi_append, tblNum. unfold zlen at 1. rewrite SL. fold (zlen t). destruct (Z.leb_spec (zlen t) v); [reflexivity|lia].
  - cbn [app feed] in *. destruct (bi_append b0 w); try discriminate. cbn [bind] in *. apply IH; assumption.
Qed.

(** ** The sorted pairs *)
Definition ge_key (a b : entry) : Prop := fst b <= fst a.
(** e may stand before f: a larger count, or the same and the smaller pair *)
Definition pair_lt (p q : Z * Z) : Prop := fst p < fst q \/ fst p = fst q /\ snd p < snd q.
Definition before (e f : entry) : Prop := fst f < fst e \/ fst e = fst f /\ pair_lt (snd e) (snd f).
Lemma mm_perm e m : Permutation (mm_insert e m) (e :: m).
Proof.
  induction m as [|x r IH]; [reflexivity|]. cbn [mm_insert]. destruct (fst x <? fst e); [reflexivity|]. rewrite IH. apply perm_swap.
Qed.
Lemma mm_sorted e m : StronglySorted before m -> Forall (fun x => pair_lt (snd x) (snd e)) m -> StronglySorted before (mm_insert e m).
Proof.
  induction 1 as [|x r S IH F]; intros G; [repeat constructor|]. inversion G as [|? ? Gx Gr]; subst. cbn [mm_insert].
  destruct (Z.ltb_spec (fst x) (fst e)) as [C|C].
  - constructor; [constructor; assumption|]. constructor; [left; exact C|]. eapply Forall_impl; [|exact F]. intros y [H|[H _]]; left; lia.
  - constructor; [apply IH; exact Gr|]. eapply Permutation_Forall; [symmetry; apply mm_perm|]. constructor; [|exact F].
    destruct (Z.eq_dec (fst x) (fst e)); [right; split; assumption|left; lia].
Qed.
Fixpoint row_entries (i j : Z) (row : list Z) : list entry := match row with [] => [] | x :: r => (x, (i, j)) :: row_entries i (j + 1) r end.
Fixpoint tbl_entries (i : Z) (tbl : list (list Z)) : list entry := match tbl with [] => [] | r :: t => row_entries i 0 r ++ tbl_entries (i + 1) t end.
Lemma row_entries_in i row : forall j e, In e (row_entries i j row) -> fst (snd e) = i /\ j <= snd (snd e).
Proof.
  induction row as [|x r IH]; intros j e I; [destruct I|]. destruct I as [<-|I]; [cbn [fst snd]; lia|]. destruct (IH _ _ I). lia.
Qed.
Lemma row_spec i row : forall j m, StronglySorted before m -> Forall (fun x => fst (snd x) < i \/ fst (snd x) = i /\ snd (snd x) < j) m ->
  StronglySorted before (pairs_of_row i j row m) /\ Permutation (pairs_of_row i j row m) (row_entries i j row ++ m) /\
  Forall (fun x => fst (snd x) <= i) (pairs_of_row i j row m).
Proof.
  induction row as [|x r IH]; intros j m S F; cbn [pairs_of_row row_entries app].
  - split; [exact S|]. split; [reflexivity|]. eapply Forall_impl; [|exact F]. cbv beta. intros a H. lia.
  - destruct (IH (j + 1) (mm_insert (x, (i, j)) m)) as (A & B & C).
    + apply mm_sorted; [exact S|]. eapply Forall_impl; [|exact F]. intros a H. unfold pair_lt. cbn [fst snd]. exact H.
    + eapply Permutation_Forall; [symmetry; apply mm_perm|]. constructor; [cbn [fst snd]; lia|]. eapply Forall_impl; [|exact F]. cbv beta. intros a H. lia.
    + split; [exact A|]. split; [|exact C]. rewrite B. rewrite mm_perm. symmetry. apply Permutation_middle.
Qed.
Lemma tbl_spec tbl : forall i m, StronglySorted before m -> Forall (fun x => fst (snd x) < i) m ->
  StronglySorted before (pairs_of i tbl m) /\ Permutation (pairs_of i tbl m) (tbl_entries i tbl ++ m).
Proof.
  induction tbl as [|row tbl IH]; intros i m S F; cbn [pairs_of tbl_entries app]; [split; [exact S|reflexivity]|].
  destruct (row_spec i row 0 m S) as (A & B & C); [eapply Forall_impl; [|exact F]; cbv beta; intros a H; left; exact H|].
  destruct (IH (i + 1) _ A) as (A' & B'); [eapply Forall_impl; [|exact C]; cbv beta; intros a H; lia|].
  split; [exact A'|]. rewrite B', B. rewrite !app_assoc. apply Permutation_app_tail. apply Permutation_app_comm.
Qed.
Lemma row_entries_iff i row : forall j c x y, 0 <= j -> In (c, (x, y)) (row_entries i j row) <-> x = i /\ j <= y /\ nth_error row (Z.to_nat (y - j)) = Some c.
Proof.
  induction row as [|a r IH]; intros j c x y J; cbn [row_entries].
  - split; [intros []|]. intros (_ & _ & E). destruct (Z.to_nat (y - j)); discriminate.
  - change (In (c, (x, y)) ((a, (i, j)) :: row_entries i (j + 1) r)) with ((a, (i, j)) = (c, (x, y)) \/ In (c, (x, y)) (row_entries i (j + 1) r)).
    rewrite (IH (j + 1) c x y) by lia. split.
    + intros [E|(-> & L & E)]; [injection E as -> -> ->; rewrite Z.sub_diag; split; [reflexivity|]; split; [lia|reflexivity]|].
      split; [reflexivity|]. split; [lia|]. replace (Z.to_nat (y - j)) with (S (Z.to_nat (y - (j + 1)))) by lia. exact E.
    + intros (-> & L & E). destruct (Z.eq_dec y j) as [->|N].
      * left. rewrite Z.sub_diag in E. injection E as ->. reflexivity.
      * right. split; [reflexivity|]. split; [lia|]. replace (Z.to_nat (y - j)) with (S (Z.to_nat (y - (j + 1)))) in E by lia. exact E.
Qed.
Lemma tbl_entries_iff tbl : forall i c x y, 0 <= i -> In (c, (x, y)) (tbl_entries i tbl) <->
  i <= x /\ 0 <= y /\ exists row, nth_error tbl (Z.to_nat (x - i)) = Some row /\ nth_error row (Z.to_nat y) = Some c.
Proof.
  induction tbl as [|r t IH]; intros i c x y I; cbn [tbl_entries].
  - split; [intros []|]. intros (_ & _ & row & E & _). destruct (Z.to_nat (x - i)); discriminate.
  - rewrite in_app_iff, row_entries_iff, IH by lia. rewrite Z.sub_0_r. split.
    + intros [(-> & Y & E)|(L & Y & row & E & E')].
      * split; [lia|]. split; [exact Y|]. exists r. rewrite Z.sub_diag. split; [reflexivity|exact E].
      * split; [lia|]. split; [exact Y|]. exists row. replace (Z.to_nat (x - i)) with (S (Z.to_nat (x - (i + 1)))) by lia. split; assumption.
    + intros (L & Y & row & E & E'). destruct (Z.eq_dec x i) as [->|N].
      * left. rewrite Z.sub_diag in E. injection E as ->. split; [reflexivity|]. split; assumption.
      * right. split; [lia|]. split; [exact Y|]. exists row. replace (Z.to_nat (x - i)) with (S (Z.to_nat (x - (i + 1)))) in E by lia. split; assumption.
Qed.
(** the map holds every pair with its counter, the most frequent first, pairs of the same counter in their order *)
Theorem C107_pairs : forall t s b, Forall (fun v => 0 <= v < zlen t) s -> feed (Bigram t) s = Ok b ->
  StronglySorted before (getPairMap b) /\
  forall c x y, In (c, (x, y)) (getPairMap b) <-> 0 <= x < zlen t /\ 0 <= y < zlen t /\ c = follows x y s mod 2 ^ 32.
Proof.
  intros t s b F E. destruct (feed_spec s (Bigram t) (length t) (fresh_shape t) F) as (b' & E' & S & _ & _); [cbn [Bigram bg_prev]; unfold zlen; lia|].
  rewrite E in E'. injection E' as <-. destruct (C107_count t s F) as (b' & E' & C). rewrite E in E'. injection E' as <-.
  destruct (tbl_spec (bg_tbl b) 0 []) as [A B]; [constructor|constructor|]. rewrite app_nil_r in B.
  split; [exact A|]. intros c x y. unfold getPairMap.
  assert (X : In (c, (x, y)) (pairs_of 0 (bg_tbl b) []) <-> In (c, (x, y)) (tbl_entries 0 (bg_tbl b))).
  { split; apply Permutation_in; [exact B|symmetry; exact B]. }
  rewrite X, tbl_entries_iff by lia. rewrite Z.sub_0_r. destruct S as [SL SF]. unfold zlen in *. split.
  - intros (X0 & Y0 & row & E1 & E2).
    assert (X1 : (Z.to_nat x < length (bg_tbl b))%nat) by (apply nth_error_Some; congruence).
    assert (RL : length row = length t) by (rewrite Forall_forall in SF; apply SF; eapply nth_error_In; exact E1).
    assert (Y1 : (Z.to_nat y < length row)%nat) by (apply nth_error_Some; congruence).
    split; [lia|]. split; [lia|]. specialize (C x y ltac:(lia) ltac:(lia)). unfold count in C.
    rewrite (rd_some _ _ _ X0 E1) in C. cbn [bind] in C. rewrite (rd_some _ _ _ Y0 E2) in C. injection C as ->. reflexivity.
  - intros (X0 & Y0 & ->). split; [lia|]. split; [lia|].
    destruct (shape_rd b (length t) x (conj SL SF) X0) as (row & R & L & NE). exists row. split; [exact NE|].
    specialize (C x y X0 Y0). unfold count in C. rewrite R in C. cbn [bind] in C.
    destruct (nth_error row (Z.to_nat y)) as [c|] eqn:NY; [|apply nth_error_None in NY; lia].
    rewrite (rd_some _ _ _ (proj1 Y0) NY) in C. injection C as ->. reflexivity.
Qed.

(** ** Concatenation *)
Lemma all1_val : all1 = 2 ^ 64 - 1. Proof. reflexivity. Qed.
Lemma ones_testbit n i : 0 <= n -> Z.testbit (2 ^ n - 1) i = (0 <=? i) && (i <? n).
Proof.
  intros N. replace (2 ^ n - 1) with (Z.ones n) by (rewrite Z.ones_equiv; lia).
  destruct (Z.leb_spec 0 i) as [P|P]; [|rewrite Z.testbit_neg_r by lia; reflexivity].
  cbn [andb]. destruct (Z.ltb_spec i n); [apply Z.ones_spec_low; lia|apply Z.ones_spec_high; lia].
Qed.
Lemma getMask_val n : 0 <= n -> getMask n = 2 ^ n - 1.
Proof. intros H. unfold getMask. rewrite Z.shiftl_1_l. reflexivity. Qed.
Lemma isAll1_iff v len : code v len -> isAll1 v len = true <-> v = (if 64 <=? len then 2 ^ 64 - 1 else 2 ^ len - 1).
Proof.
  intros (P & R & S & _). unfold isAll1. destruct (Z.leb_spec 64 len) as [C|C]; [rewrite Z.eqb_eq; reflexivity|].
  rewrite getMask_val by lia. specialize (S C). rewrite Z.eqb_eq.
  assert (O : 2 ^ len - 1 = Z.ones len) by (rewrite Z.ones_equiv; lia). rewrite O, !Z.land_ones by lia.
  rewrite (Z.mod_small v) by lia.
  replace (all1 mod 2 ^ len) with (Z.ones len); [reflexivity|].
  rewrite all1_val. rewrite <- Z.land_ones by lia. replace (2 ^ 64 - 1) with (Z.ones 64) by reflexivity.
  apply Z.bits_inj'. intros i I. rewrite Z.land_spec.
  destruct (Z.ltb_spec i len).
  - rewrite (Z.ones_spec_low len) by lia. rewrite (Z.ones_spec_low 64) by lia. reflexivity.
  - rewrite (Z.ones_spec_high len) by lia. rewrite andb_false_r. reflexivity.
Qed.
Lemma bits_length v n : length (bits v n) = Z.to_nat n.
Proof. unfold bits. rewrite map_length, seq_length. reflexivity. Qed.
Lemma bits_nth v n i : (i < Z.to_nat n)%nat -> nth i (bits v n) false = Z.testbit v (Z.of_nat i mod 64).
Proof.
  intros H. unfold bits. apply nth_error_nth. erewrite map_nth_error; [reflexivity|].
  rewrite (nth_error_nth' _ O) by (rewrite seq_length; exact H). rewrite seq_nth by exact H. reflexivity.
Qed.
Lemma bits_app_eq v n v1 n1 v2 n2 : 0 <= n1 -> 0 <= n2 -> n = n1 + n2 ->
  (forall i, 0 <= i < n1 -> Z.testbit v (i mod 64) = Z.testbit v1 (i mod 64)) ->
  (forall i, 0 <= i < n2 -> Z.testbit v ((n1 + i) mod 64) = Z.testbit v2 (i mod 64)) -> bits v n = bits v1 n1 ++ bits v2 n2.
Proof.
  intros N1 N2 -> A B. apply nth_ext with (d := false) (d' := false); [rewrite app_length, !bits_length; lia|].
  intros i Hi. rewrite bits_length in Hi. rewrite bits_nth by exact Hi.
  destruct (Nat.lt_ge_cases i (Z.to_nat n1)) as [C|C].
  - rewrite app_nth1 by (rewrite bits_length; exact C). rewrite bits_nth by exact C. apply A. lia.
  - rewrite app_nth2 by (rewrite bits_length; exact C). rewrite bits_length, bits_nth by lia.
    rewrite <- B by lia. f_equal. f_equal. lia.
Qed.
Lemma bits_const_ones v n : (v = if 64 <=? n then 2 ^ 64 - 1 else 2 ^ n - 1) -> forall i, 0 <= i < n -> Z.testbit v (i mod 64) = true.
Proof.
  intros -> i I. destruct (Z.leb_spec 64 n).
  - rewrite ones_testbit by lia. pose proof (Z.mod_pos_bound i 64). destruct (Z.leb_spec 0 (i mod 64)); [|lia]. destruct (Z.ltb_spec (i mod 64) 64); [reflexivity|lia].
  - rewrite Z.mod_small by lia. rewrite ones_testbit by lia. destruct (Z.leb_spec 0 i); [|lia]. destruct (Z.ltb_spec i n); [reflexivity|lia].
Qed.
Lemma rd_in {A} (l : list A) i x : rd l i = Ok x -> 0 <= i < zlen l.
Proof.
  unfold rd. destruct (i <? 0) eqn:C; [discriminate|]. rewrite Z.ltb_ge in C. intros E.
  destruct (nth_error l (Z.to_nat i)) eqn:N; [|discriminate]. assert ((Z.to_nat i < length l)%nat) by (apply nth_error_Some; congruence). unfold zlen. lia.
Qed.
(** the code of a pair stands for the bits of the first followed by those of the second; if it says no, there is no such code *)
Theorem C107_concat : forall t x y p c, rd t x = Ok p -> rd t y = Ok c -> code (ev p) (elen p) -> code (ev c) (elen c) ->
  elen p + elen c < 2 ^ 32 ->
  match concatPair t (x, y) with
  | Ok (Some (v, len)) => code v len /\ bits v len = bits (ev p) (elen p) ++ bits (ev c) (elen c)
  | Ok None => forall v len, code v len -> bits v len <> bits (ev p) (elen p) ++ bits (ev c) (elen c)
  | _ => False
  end.
Proof.
  intros t x y p c Hp Hc CP CC LEN. unfold concatPair. cbn [fst snd]. rewrite Hp, Hc. cbn [bind].
  set (L := ev p) in *. set (Ln := elen p) in *. set (H := ev c) in *. set (Hn := elen c) in *. clearbody L Ln H Hn.
  pose proof CP as (P1 & P2 & P3 & P4). pose proof CC as (C1 & C2 & C3 & C4). rewrite (Z.mod_small (Ln + Hn)) by lia.
  destruct (Z.eqb_spec L 0) as [L0|L0]; [destruct (Z.eqb_spec H 0) as [H0|H0]|]; cbn [andb].
  1: { subst L H. split.
    - split; [lia|]. split; [lia|]. split; [intros _; apply Z.pow_pos_nonneg; lia|left; reflexivity].
    - apply bits_app_eq; [lia|lia|reflexivity|intros; reflexivity|]. intros i I. rewrite !Z.testbit_0_l. reflexivity. }
  all: destruct (isAll1 L Ln && isAll1 H Hn) eqn:ALL.
  1, 3: apply andb_true_iff in ALL; destruct ALL as [A1 A2]; apply (isAll1_iff _ _ CP) in A1; apply (isAll1_iff _ _ CC) in A2;
    rewrite getMask_val by lia; rewrite all1_val; set (v := if 64 <=? Ln + Hn then 2 ^ 64 - 1 else 2 ^ (Ln + Hn) - 1);
    (split; [unfold v; destruct (Z.leb_spec 64 (Ln + Hn));
       [split; [lia|]; split; [lia|]; split; [lia|]; intros _; right; reflexivity
       |pose proof (Z.pow_lt_mono_r 2 (Ln + Hn) 64); assert (0 < 2 ^ (Ln + Hn)) by (apply Z.pow_pos_nonneg; lia); split; [lia|]; split; [lia|]; split; [lia|]; intros; lia]
     |apply bits_app_eq; [lia|lia|reflexivity| |];
       intros i I; rewrite (bits_const_ones v (Ln + Hn) eq_refl) by lia; symmetry; [apply (bits_const_ones L Ln A1); lia|apply (bits_const_ones H Hn A2); lia]]).
  all: destruct (Z.leb_spec (Ln + Hn) 64) as [S|S].
  1, 3: destruct (Z.leb_spec 64 Ln) as [B|B]; [lia|];
    specialize (P3 B); assert (HB : H < 2 ^ Hn) by (apply C3; lia);
    assert (SM : Z.shiftl H Ln mod 2 ^ 64 = Z.shiftl H Ln) by
      (rewrite Z.shiftl_mul_pow2 by lia; apply Z.mod_small; split; [apply Z.mul_nonneg_nonneg; [lia|apply Z.pow_nonneg; lia]|];
       apply Z.lt_le_trans with (2 ^ Hn * 2 ^ Ln); [apply Z.mul_lt_mono_pos_r; [apply Z.pow_pos_nonneg; lia|exact HB]|];
       rewrite <- Z.pow_add_r by lia; apply Z.pow_le_mono_r; lia);
    rewrite SM;
    assert (LT : forall i, Ln <= i -> Z.testbit L i = false) by (intros i I; apply Z.bits_above_log2; [lia|]; destruct (Z.eq_dec L 0) as [->|N]; [cbn; lia|]; apply Z.log2_lt_pow2; [lia|]; apply Z.lt_le_trans with (2 ^ Ln); [exact P3|apply Z.pow_le_mono_r; lia]);
    assert (HT : forall i, Hn <= i -> Z.testbit H i = false) by (intros i I; apply Z.bits_above_log2; [lia|]; destruct (Z.eq_dec H 0) as [->|N]; [cbn; lia|]; apply Z.log2_lt_pow2; [lia|]; apply Z.lt_le_trans with (2 ^ Hn); [exact HB|apply Z.pow_le_mono_r; lia]);
    assert (NN : 0 <= Z.lor (Z.shiftl H Ln) L) by (apply Z.lor_nonneg; split; [apply Z.shiftl_nonneg; lia|lia]);
    assert (UB_ : Z.lor (Z.shiftl H Ln) L < 2 ^ (Ln + Hn)) by
      (apply Z.log2_lt_cancel; rewrite Z.log2_pow2 by lia;
       destruct (Z.eq_dec (Z.lor (Z.shiftl H Ln) L) 0) as [->|NZ]; [cbn; lia|];
       destruct (Z.lt_ge_cases (Z.log2 (Z.lor (Z.shiftl H Ln) L)) (Ln + Hn)) as [G|G]; [exact G|exfalso];
       pose proof (Z.bit_log2 (Z.lor (Z.shiftl H Ln) L)) as BL; rewrite Z.lor_spec, Z.shiftl_spec in BL by lia;
       rewrite LT, HT in BL by lia; specialize (BL ltac:(lia)); discriminate);
    (split; [split; [lia|]; split; [split; [exact NN|]; apply Z.lt_le_trans with (2 ^ (Ln + Hn)); [exact UB_|apply Z.pow_le_mono_r; lia]|]; split; [intros _; exact UB_|intros; lia]
     |apply bits_app_eq; [lia|lia|reflexivity| |];
       [intros i I; rewrite !Z.mod_small by lia; rewrite Z.lor_spec, Z.shiftl_spec by lia; rewrite (Z.testbit_neg_r H) by lia; reflexivity
       |intros i I; rewrite !Z.mod_small by lia; rewrite Z.lor_spec, Z.shiftl_spec by lia; replace (Ln + i - Ln) with i by lia; rewrite LT by lia; apply orb_false_r]]).
  all: intros v len (V1 & V2 & V3 & V4) E.
  all: assert (LE : len = Ln + Hn) by (apply (f_equal (@length bool)) in E; rewrite app_length, !bits_length in E; lia); subst len.
  all: destruct (V4 ltac:(lia)) as [VV|VV].
  all: assert (Q : forall i, (i < Z.to_nat (Ln + Hn))%nat -> nth i (bits v (Ln + Hn)) false = nth i (bits L Ln ++ bits H Hn) false) by (intros; rewrite E; reflexivity).
  all: assert (QL : forall i, 0 <= i < Ln -> Z.testbit v (i mod 64) = Z.testbit L (i mod 64)) by
      (intros i I; specialize (Q (Z.to_nat i) ltac:(lia)); rewrite bits_nth in Q by lia; rewrite app_nth1 in Q by (rewrite bits_length; lia);
       rewrite bits_nth in Q by lia; rewrite Z2Nat.id in Q by lia; exact Q).
  all: assert (QH : forall i, 0 <= i < Hn -> Z.testbit v ((Ln + i) mod 64) = Z.testbit H (i mod 64)) by
      (intros i I; specialize (Q (Z.to_nat (Ln + i)) ltac:(lia)); rewrite bits_nth in Q by lia; rewrite app_nth2 in Q by (rewrite bits_length; lia);
       rewrite bits_length, bits_nth in Q by lia; rewrite Z2Nat.id in Q by lia;
       replace (Z.of_nat (Z.to_nat (Ln + i) - Z.to_nat Ln)) with i in Q by lia; exact Q).
  all: clear Q E.
  all: assert (ZERO : forall a n, code a n -> (forall i, 0 <= i < n -> Z.testbit a (i mod 64) = false) -> a = 0) by
      (clear; intros a n (A1 & A2 & A3 & A4) Z0; apply Z.bits_inj'; intros i I; rewrite Z.testbit_0_l;
       destruct (Z.lt_ge_cases i n) as [C|C];
       [destruct (Z.lt_ge_cases i 64) as [D|D]; [rewrite <- (Z0 i) by lia; rewrite Z.mod_small by lia; reflexivity|]|];
       (destruct (Z.eq_dec a 0) as [->|NZ]; [apply Z.testbit_0_l|]; apply Z.bits_above_log2; [lia|]; apply Z.log2_lt_pow2; [lia|]);
       [apply Z.lt_le_trans with (2 ^ 64); [lia|apply Z.pow_le_mono_r; lia]|];
       destruct (Z.lt_ge_cases n 64); [apply Z.lt_le_trans with (2 ^ n); [apply A3; lia|apply Z.pow_le_mono_r; lia]
         |apply Z.lt_le_trans with (2 ^ 64); [lia|apply Z.pow_le_mono_r; lia]]).
  all: assert (ONES : forall a n, code a n -> (forall i, 0 <= i < n -> Z.testbit a (i mod 64) = true) -> isAll1 a n = true) by
      (intros a n CA O; apply (isAll1_iff a n CA); destruct CA as (A1 & A2 & A3 & A4);
       set (k := if 64 <=? n then 64 else n); assert (K : 0 < k <= 64 /\ k <= n) by (unfold k; destruct (Z.leb_spec 64 n); lia);
       assert (AK : a < 2 ^ k) by (unfold k; destruct (Z.leb_spec 64 n); [lia|apply A3; lia]);
       transitivity (2 ^ k - 1); [|unfold k; destruct (Z.leb_spec 64 n); reflexivity];
       apply Z.bits_inj'; intros i I; rewrite ones_testbit by lia;
       destruct (Z.leb_spec 0 i); [|lia]; cbn [andb]; destruct (Z.ltb_spec i k) as [C|C];
       [rewrite <- (O i) by lia; rewrite Z.mod_small by lia; reflexivity|];
       destruct (Z.eq_dec a 0) as [->|NZ]; [apply Z.testbit_0_l|]; apply Z.bits_above_log2; [lia|]; apply Z.log2_lt_pow2; [lia|];
       apply Z.lt_le_trans with (2 ^ k); [exact AK|apply Z.pow_le_mono_r; lia]).
  all: assert (T1 : forall j, Z.testbit (2 ^ 64 - 1) (j mod 64) = true) by (intros j; rewrite ones_testbit by lia; pose proof (Z.mod_pos_bound j 64);
       destruct (Z.leb_spec 0 (j mod 64)); [|lia]; destruct (Z.ltb_spec (j mod 64) 64); [reflexivity|lia]).
  - apply H0. apply (ZERO H Hn CC). intros i I. rewrite <- QH by lia. rewrite VV. apply Z.testbit_0_l.
  - rewrite andb_false_iff in ALL. destruct ALL as [A|A]; [rewrite (ONES L Ln CP) in A; [discriminate|]; intros i I; rewrite <- QL by lia; rewrite VV; apply T1
      |rewrite (ONES H Hn CC) in A; [discriminate|]; intros i I; rewrite <- QH by lia; rewrite VV; apply T1].
  - apply L0. apply (ZERO L Ln CP). intros i I. rewrite <- QL by lia. rewrite VV. apply Z.testbit_0_l.
  - rewrite andb_false_iff in ALL. destruct ALL as [A|A]; [rewrite (ONES L Ln CP) in A; [discriminate|]; intros i I; rewrite <- QL by lia; rewrite VV; apply T1
      |rewrite (ONES H Hn CC) in A; [discriminate|]; intros i I; rewrite <- QH by lia; rewrite VV; apply T1].
Qed.
(** the top code is made of a most frequent pair *)
Theorem C107_top : forall t s b, t <> [] -> Forall (fun v => 0 <= v < zlen t) s -> feed (Bigram t) s = Ok b ->
  exists x y, 0 <= x < zlen t /\ 0 <= y < zlen t /\ getTopEncoding t b = concatPair t (x, y) /\
    forall x' y', 0 <= x' < zlen t -> 0 <= y' < zlen t -> follows x' y' s mod 2 ^ 32 <= follows x y s mod 2 ^ 32.
Proof.
  intros t s b N F E. destruct (C107_pairs t s b F E) as [S I]. unfold getTopEncoding.
  assert (P : 0 < zlen t) by (destruct t; [contradiction|rewrite zlen_cons; pose proof (zlen_nonneg t); lia]).
  destruct (getPairMap b) as [|[c [x y]] m].
  - exfalso. assert (X : In (follows 0 0 s mod 2 ^ 32, (0, 0)) []); [|destruct X]. apply I. split; [lia|]. split; [lia|reflexivity].
  - pose proof (proj1 (I c x y) (or_introl eq_refl)) as (X & Y & ->). exists x, y. split; [exact X|]. split; [exact Y|]. split; [reflexivity|].
    intros x' y' X' Y'. pose proof (proj2 (I _ x' y') (conj X' (conj Y' eq_refl))) as J.
    destruct J as [J|J]; [injection J as _ <- <-; lia|]. inversion S as [|? ? _ G]; subst. rewrite Forall_forall in G. destruct (G _ J) as [H|[H _]]; cbn [fst] in H; lia.
Qed.
(** the codes of the table CSucVector uses are codes in this sense, so concatPair is right on every pair of them *)
Definition codeb (e : enc) : bool :=
  (0 <? elen e) && (0 <=? ev e) && (ev e <? 2 ^ 64) && ((64 <=? elen e) || (ev e <? 2 ^ elen e)) && ((elen e <=? 64) || (ev e =? 0) || (ev e =? 2 ^ 64 - 1)).
Theorem C107_table : forall x64 e, In e (initTable x64) -> code (ev e) (elen e) /\ elen e < 2 ^ 31.
Proof.
  intros x64 e I.
  assert (B : forallb (fun e => codeb e && (elen e <? 2 ^ 31)) (initTable x64) = true) by (destruct x64; reflexivity).
  rewrite forallb_forall in B. specialize (B e I). unfold codeb in B. unfold code.
  rewrite !andb_true_iff, !orb_true_iff, !Z.ltb_lt, !Z.leb_le, !Z.eqb_eq in B. lia.
Qed.
(** ** Finding: with an empty table of codes getTopEncoding dereferences begin() of an empty map (csucvector.hpp:158) *)
Theorem C107_empty_finding : getTopEncoding [] (Bigram []) = UB.
Proof. reflexivity. Qed.
(** ** Finding: the counters are uint32_t: after 2^32 repetitions of a pair its counter is 0 and it is no longer the top *)
Theorem C107_wrap_finding : forall x, follows x x (repeat x (S (Z.to_nat (2 ^ 32)))) mod 2 ^ 32 = 0.
Proof.
  intros x. assert (H : forall n, follows x x (repeat x (S n)) = Z.of_nat n).
  { induction n as [|n IH]; [reflexivity|]. change (repeat x (S (S n))) with (x :: x :: repeat x n).
    change (follows x x (x :: x :: repeat x n)) with ((if (x =? x) && (x =? x) then 1 else 0) + follows x x (repeat x (S n))).
    rewrite IH, Z.eqb_refl. cbn [andb]. lia. }
  rewrite H, Z2Nat.id by lia. apply Z.mod_same. lia.
Qed.
Example C107_ex : exists b, feed (Bigram [mk_e 5 3 2; mk_e 1 2 1]) [0; 1; 0; 1; 1; 0] = Ok b /\ count b 0 1 = Ok 2 /\ count b 1 0 = Ok 2 /\ count b 1 1 = Ok 1 /\
  getTopEncoding [mk_e 5 3 2; mk_e 1 2 1] b = Ok (Some (13, 5)) /\ code 5 3 /\ code 1 2 /\ bits 13 5 = bits 5 3 ++ bits 1 2.
Proof. eexists. split; [reflexivity|]. split; [reflexivity|]. split; [reflexivity|]. split; [reflexivity|]. split; [reflexivity|]. split; [unfold code; lia|]. split; [unfold code; lia|]. reflexivity. Qed.
Example C107_ex_none : concatPair [mk_e 0 128 0; mk_e 1 2 1] (0, 1) = Ok None /\ concatPair [mk_e 0 128 0; mk_e 1 2 1] (0, 0) = Ok (Some (0, 256)).
Proof. split; reflexivity. Qed.

Print Assumptions C107_count.
Print Assumptions C107_bad.
Print Assumptions C107_pairs.
Print Assumptions C107_concat.
Print Assumptions C107_top.
Print Assumptions C107_table.
Print Assumptions C107_empty_finding.
Print Assumptions C107_wrap_finding.
