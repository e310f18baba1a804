(** Property C90: the start matrix of the decomposition and the column compression divide the rows (columns) into balanced consecutive groups. *)
From Coq Require Import Reals.
Require Import Verif.Common Verif.PlsiModel Verif.PlsiProps Verif.SvdModel.
Local Open Scope Z_scope.

(** ** Specification *)
(** n things in a row are divided among g groups: thing i belongs to group j *)
Definition group (n g i j : Z) : bool := (j * n <=? i * g) && (i * g <? (j + 1) * n).
Definition members (n g j : Z) : list Z := filter (fun i => group n g i j) (upto n).

(** ** Ranges *)
Lemma in_span b e k : In k (span b e) <-> b <= k < e.
Proof. unfold span. rewrite in_map_iff. split; [intros (x & <- & H); apply in_upto in H; lia|]. intros H. exists (k - b). split; [lia|]. apply in_upto. lia. Qed.
Lemma upto_add a : forall b, 0 <= a -> 0 <= b -> upto (a + b) = upto a ++ map (Z.add a) (upto b).
Proof.
  intros b Ha Hb. unfold upto. replace (Z.to_nat (a + b)) with (Z.to_nat a + Z.to_nat b)%nat by lia. rewrite seq_app, map_app. f_equal. cbn [Nat.add].
  rewrite map_map. assert (G : forall n m s, map Z.of_nat (seq (m + s) n) = map (fun x => Z.of_nat m + Z.of_nat x) (seq s n)) by (induction n as [|n IH]; intros m s; cbn [seq map]; auto; f_equal; [lia|]; rewrite <- IH; f_equal; f_equal; lia).
  specialize (G (Z.to_nat b) (Z.to_nat a) 0%nat). rewrite Nat.add_0_r in G. rewrite G. apply map_ext. intros; lia.
Qed.
Lemma span_split a b c : a <= b <= c -> span a c = span a b ++ span b c.
Proof.
  intros H. unfold span. replace (c - a) with ((b - a) + (c - b)) by lia. rewrite upto_add, map_app by lia. f_equal. rewrite map_map. apply map_ext. intros; lia.
Qed.
Lemma span_0 n : span 0 n = upto n.
Proof. unfold span. rewrite Z.sub_0_r. rewrite <- (map_id (upto n)) at 2. apply map_ext. intros; lia. Qed.
Lemma filter_all {A} (p : A -> bool) l : (forall x, In x l -> p x = true) -> filter p l = l.
Proof. induction l as [|x l IH]; intros H; cbn; auto. rewrite H by (left; auto). f_equal. apply IH. intros; apply H; right; auto. Qed.
Lemma filter_none {A} (p : A -> bool) l : (forall x, In x l -> p x = false) -> filter p l = [].
Proof. induction l as [|x l IH]; intros H; cbn; auto. rewrite H by (left; auto). apply IH. intros; apply H; right; auto. Qed.
Lemma filter_span (p : Z -> bool) n b e : 0 <= b <= e -> e <= n -> (forall k, 0 <= k < n -> p k = true <-> b <= k < e) -> filter p (upto n) = span b e.
Proof.
  intros H1 H2 P. rewrite <- span_0, (span_split 0 b n), (span_split b e n), !filter_app by lia.
  rewrite (filter_none p (span 0 b)), (filter_all p (span b e)), (filter_none p (span e n)), app_nil_r; auto; intros x I; apply in_span in I.
  - destruct (p x) eqn:E; auto. apply P in E; lia.
  - apply P; lia.
  - destruct (p x) eqn:E; auto. apply P in E; lia.
Qed.
Lemma zlen_span b e : b <= e -> zlen (span b e) = e - b.
Proof. intros H. unfold zlen, span. rewrite map_length. change (Z.of_nat (length (upto (e - b)))) with (zlen (upto (e - b))). apply upto_len. lia. Qed.

(** ** Groups *)
Ltac Zify.zify_post_hook ::= idtac.
(** the first member of group j *)
Definition cut (n g j : Z) : Z := (j * n + g - 1) / g.
Lemma cut_le n g j i : 0 < g -> cut n g j <= i <-> j * n <= i * g.
Proof.
  intros G. unfold cut. pose proof (Z.div_mod (j * n + g - 1) g ltac:(lia)) as D. pose proof (Z.mod_pos_bound (j * n + g - 1) g G) as B. set (c := (j * n + g - 1) / g) in *. split; intros H; nia.
Qed.
Lemma cut_mono n g j : 0 < g -> 0 <= n -> 0 <= j -> 0 <= cut n g j <= cut n g (j + 1).
Proof.
  intros G N J. split; [|apply cut_le; auto; pose proof (cut_le n g (j + 1) (cut n g (j + 1)) G); nia]. unfold cut. apply Z.div_pos; nia.
Qed.
Lemma cut_end n g j : 0 < g -> 0 <= n -> j <= g -> cut n g j <= n.
Proof. intros G N J. apply cut_le; auto. nia. Qed.
Lemma cut_all n g : 0 < g -> cut n g g = n.
Proof. intros G. unfold cut. replace (g * n + g - 1) with (n * g + (g - 1)) by lia. rewrite Z.div_add_l by lia. rewrite (Z.div_small (g - 1) g) by lia. lia. Qed.
Lemma group_cut n g i j : 0 < g -> group n g i j = true <-> cut n g j <= i < cut n g (j + 1).
Proof.
  intros G. unfold group. rewrite andb_true_iff, Z.leb_le, Z.ltb_lt. pose proof (cut_le n g j i G). pose proof (cut_le n g (j + 1) i G). lia.
Qed.
Lemma members_span n g j : 0 < g -> 0 <= n -> 0 <= j < g -> members n g j = span (cut n g j) (cut n g (j + 1)).
Proof.
  intros G N J. apply filter_span.
  - apply cut_mono; auto; lia.
  - apply cut_end; lia.
  - intros k _. apply group_cut; auto.
Qed.
(** the groups: consecutive, none empty, sizes differ by at most one, every thing in exactly one *)
Theorem C90_groups n g : 0 < g <= n ->
  (forall i, 0 <= i < n -> exists j, 0 <= j < g /\ group n g i j = true /\ forall j', group n g i j' = true -> j' = j) /\
  (forall j, 0 <= j < g -> n / g <= zlen (members n g j) <= n / g + 1 /\ 1 <= zlen (members n g j)) /\
  concat (map (members n g) (upto g)) = upto n.
Proof.
  intros H. split; [|split].
  - intros i I. exists (i * g / n). pose proof (Z.div_mod (i * g) n ltac:(lia)) as D. pose proof (Z.mod_pos_bound (i * g) n ltac:(lia)) as B. set (j := i * g / n) in *.
    unfold group. split; [split; nia|]. split; [apply andb_true_iff; rewrite Z.leb_le, Z.ltb_lt; nia|]. intros j' E. apply andb_true_iff in E. rewrite Z.leb_le, Z.ltb_lt in E. nia.
  - intros j J. rewrite members_span by lia. pose proof (cut_mono n g j ltac:(lia) ltac:(lia) ltac:(lia)). rewrite zlen_span by lia.
    unfold cut in *. pose proof (Z.div_mod (j * n + g - 1) g ltac:(lia)) as D. pose proof (Z.mod_pos_bound (j * n + g - 1) g ltac:(lia)) as B.
    pose proof (Z.div_mod ((j + 1) * n + g - 1) g ltac:(lia)) as D2. pose proof (Z.mod_pos_bound ((j + 1) * n + g - 1) g ltac:(lia)) as B2.
    pose proof (Z.div_mod n g ltac:(lia)) as D3. pose proof (Z.mod_pos_bound n g ltac:(lia)) as B3. assert (1 <= n / g) by (apply Z.div_le_lower_bound; lia).
    set (c1 := (j * n + g - 1) / g) in *. set (c2 := ((j + 1) * n + g - 1) / g) in *. set (q := n / g) in *. split; [split; nia|nia].
  - assert (G : forall m, (Z.of_nat m <= g) -> concat (map (members n g) (upto (Z.of_nat m))) = span 0 (cut n g (Z.of_nat m))).
    { induction m as [|m IH]; intros L.
      - unfold cut. cbn [Z.of_nat Z.mul]. rewrite Z.div_small by lia. reflexivity.
      - replace (Z.of_nat (S m)) with (Z.of_nat m + 1) by lia. rewrite upto_snoc, map_app, concat_app, IH by lia. cbn [map concat]. rewrite app_nil_r, members_span by lia.
        pose proof (cut_mono n g (Z.of_nat m) ltac:(lia) ltac:(lia) ltac:(lia)). rewrite <- span_split by lia. reflexivity. }
    specialize (G (Z.to_nat g)). rewrite Z2Nat.id in G by lia. rewrite G by lia. rewrite cut_all, span_0 by lia. reflexivity.
Qed.

Lemma put_ok {F} (M : mat F) i j x : 0 <= i < rows M -> 0 <= j < cols M -> exists M', put M i j x = Ok M' /\ rows M' = rows M /\ cols M' = cols M /\
  forall a b, at_ M' a b = if (a =? i) && (b =? j) then x else at_ M a b.
Proof.
  intros Hi Hj. unfold put. assert (E : inside M i j = true) by (unfold inside; rewrite !andb_true_iff, !Z.leb_le, !Z.ltb_lt; lia). rewrite E. eexists. split; [reflexivity|]. cbn. auto.
Qed.
Lemma get_ok {F} (M : mat F) i j : 0 <= i < rows M -> 0 <= j < cols M -> get M i j = Ok (at_ M i j).
Proof. intros Hi Hj. unfold get. assert (E : inside M i j = true) by (unfold inside; rewrite !andb_true_iff, !Z.leb_le, !Z.ltb_lt; lia). now rewrite E. Qed.
Lemma cint_ok x : - 2 ^ 31 <= x < 2 ^ 31 -> cint x = Ok x.
Proof. intros H. unfold cint. assert (E : (- 2 ^ 31 <=? x) && (x <? 2 ^ 31) = true) by (rewrite andb_true_iff, Z.leb_le, Z.ltb_lt; lia). now rewrite E. Qed.
Lemma cint_ub x : 2 ^ 31 <= x -> cint x = UB.
Proof. intros H. unfold cint. assert (E : (- 2 ^ 31 <=? x) && (x <? 2 ^ 31) = false) by (apply andb_false_iff; right; apply Z.ltb_ge; lia). now rewrite E. Qed.

Section Unit.
Context {F : Type}.
Variable (fz : Z -> F).
Lemma unit_prefix (M : mat F) m : 0 <= cols M <= rows M -> 0 <= m <= rows M -> (m - 1) * cols M < 2 ^ 31 ->
  exists M', foldM (fun M' i => let! x := cint (i * cols M) in put M' i (Z.quot x (rows M)) (fz 1)) (upto m) (mk_mat (rows M) (cols M) (fun _ _ => fz 0)) =
      (if (cols M =? 0) && (0 <? m) then UB else Ok M') /\ rows M' = rows M /\ cols M' = cols M /\
    forall i j, 0 <= i < rows M -> 0 <= j < cols M -> at_ M' i j = if (i <? m) && group (rows M) (cols M) i j then fz 1 else fz 0.
Proof.
  intros HC Hm HO. destruct (Z.eqb_spec (cols M) 0) as [E0|N0].
  - rewrite !E0. exists (mk_mat (rows M) 0 (fun _ _ => fz 0)). cbn [rows cols at_]. destruct (Z.ltb_spec 0 m) as [P|P]; cbn [andb].
    + split; [|split; [auto|split; [auto|intros; lia]]]. replace m with (1 + (m - 1)) by lia. rewrite upto_add by lia. change (upto 1) with [0]. cbn [app foldM]. rewrite cint_ok by lia. cbn [bind Z.mul].
      unfold put, inside. cbn [rows cols]. rewrite Z.quot_0_l by lia. destruct (0 <? rows M); reflexivity.
    + assert (m = 0) by lia. subst m. split; [reflexivity|split; [auto|split; [auto|intros; lia]]].
  - cbn [andb]. set (R := rows M) in *. set (C := cols M) in *.
    destruct (loop (fun m (M' : mat F) => rows M' = R /\ cols M' = C /\ forall i j, 0 <= i < R -> 0 <= j < C -> at_ M' i j = if (i <? m) && group R C i j then fz 1 else fz 0)
      (fun M' i => let! x := cint (i * C) in put M' i (Z.quot x R) (fz 1)) m (mk_mat R C (fun _ _ => fz 0))) as (M' & E & Q).
    + lia.
    + cbn [rows cols at_]. split; [auto|]. split; [auto|]. intros i j Hi Hj. destruct (Z.ltb_spec i 0); [lia|]. reflexivity.
    + intros k M' Hk (ER & EC & EA). assert (HI : 0 <= k * C < 2 ^ 31) by nia. rewrite cint_ok by lia. cbn [bind]. rewrite Z.quot_div_nonneg by lia.
      pose proof (Z.div_mod (k * C) R ltac:(lia)) as D. pose proof (Z.mod_pos_bound (k * C) R ltac:(lia)) as B. set (q := k * C / R) in *.
      assert (HQ : 0 <= q < C) by (split; nia).
      destruct (put_ok M' k q (fz 1)) as (M2 & E2 & R2 & C2 & A2); [lia|lia|]. exists M2. split; [exact E2|]. split; [lia|]. split; [lia|]. intros i j Hi Hj. rewrite A2, EA by auto.
      destruct (Z.eqb_spec i k) as [->|Nk]; cbn [andb].
      * destruct (Z.ltb_spec k k); [lia|]. destruct (Z.ltb_spec k (k + 1)); [|lia]. cbn [andb]. unfold group. destruct (Z.eqb_spec j q) as [->|Nq].
        -- destruct (Z.leb_spec (q * R) (k * C)); [|nia]. destruct (Z.ltb_spec (k * C) ((q + 1) * R)); [reflexivity|nia].
        -- destruct (Z.leb_spec (j * R) (k * C)); [|reflexivity]. destruct (Z.ltb_spec (k * C) ((j + 1) * R)); [nia|reflexivity].
      * destruct (Z.ltb_spec i k), (Z.ltb_spec i (k + 1)); try lia; reflexivity.
    + exists M'. auto.
Qed.
(** ** C90: the start matrix has a one where the row belongs to the group of the column, and zeros elsewhere *)
Theorem C90_unit (M : mat F) : 1 <= cols M <= rows M -> (rows M - 1) * cols M < 2 ^ 31 ->
  exists M', InitUnitMatrix fz M = Ok M' /\ rows M' = rows M /\ cols M' = cols M /\
    forall i j, 0 <= i < rows M -> 0 <= j < cols M -> at_ M' i j = if group (rows M) (cols M) i j then fz 1 else fz 0.
Proof.
  intros HC HO. unfold InitUnitMatrix. cbn [rows cols]. destruct (Z.ltb_spec (rows M) (cols M)); [lia|].
  destruct (unit_prefix M (rows M) ltac:(lia) ltac:(lia) HO) as (M' & E & R & C & A). destruct (Z.eqb_spec (cols M) 0); [lia|]. cbn [andb] in E. exists M'. split; [exact E|]. split; [auto|]. split; [auto|].
  intros i j Hi Hj. rewrite A by auto. destruct (Z.ltb_spec i (rows M)); [|lia]. reflexivity.
Qed.
(** ** C90: more columns than rows trip the assertion, no matrix is made *)
Theorem C90_unit_assert (M : mat F) : rows M < cols M -> InitUnitMatrix fz M = UB.
Proof. intros H. unfold InitUnitMatrix. cbn [rows cols]. destruct (Z.ltb_spec (rows M) (cols M)); [reflexivity|lia]. Qed.
(** ** Finding: for larger matrices the index computation i * col overflows int, although every index is small *)
Theorem C90_unit_finding (M : mat F) : 1 <= cols M <= rows M -> 2 ^ 31 <= (rows M - 1) * cols M -> InitUnitMatrix fz M = UB.
Proof.
  intros HC HO. unfold InitUnitMatrix. cbn [rows cols]. destruct (Z.ltb_spec (rows M) (cols M)); [lia|]. set (C := cols M) in *. set (R := rows M) in *.
  set (i := (2 ^ 31 + C - 1) / C). pose proof (Z.div_mod (2 ^ 31 + C - 1) C ltac:(lia)) as D. pose proof (Z.mod_pos_bound (2 ^ 31 + C - 1) C ltac:(lia)) as B. fold i in D.
  assert (H1 : 2 ^ 31 <= i * C) by nia. assert (H2 : (i - 1) * C < 2 ^ 31) by nia. assert (H3 : 0 <= i < R) by (split; nia).
  destruct (unit_prefix M i ltac:(lia) ltac:(fold R; lia) H2) as (M' & E & _). fold C R in E. destruct (Z.eqb_spec C 0); [lia|]. cbn [andb] in E.
  assert (UE : upto R = upto i ++ [i] ++ map (Z.add (i + 1)) (upto (R - i - 1))) by (rewrite app_assoc, <- upto_snoc, <- upto_add by lia; f_equal; lia).
  rewrite UE, foldM_app, E. cbn [bind app foldM]. rewrite cint_ub by lia. reflexivity.
Qed.
End Unit.
Section Compress.
Context {F : Type}.
Variables (fadd : F -> F -> F) (fz : Z -> F) (cast : F -> F).
Definition compress_body (m : mat F) r : mat F * Z -> Z -> res (mat F * Z) := fun '(out, begin_) j =>
      let! a := cint ((j + 1) * cols m) in
      let! a := cint (a + r) in
      let end_ := Z.min (Z.quot (a - 1) r) (cols m) in
      let! out := foldM (fun out i =>
          let! x := foldM (fun x k => let! y := get m i k in Ok (fadd x y)) (span begin_ end_) (fz 0) in
          put out i j (cast x)) (upto (rows m)) out in
      Ok (out, end_).
Lemma compress_prefix (out m : mat F) r n : 1 <= r <= cols m -> 0 <= rows m -> 0 <= n <= r -> n * cols m + r < 2 ^ 31 ->
  exists o, foldM (compress_body m r) (upto n) (mk_mat (rows m) r (at_ out), 0) = Ok (o, cut (cols m) r n) /\ rows o = rows m /\ cols o = r /\
    forall i j, 0 <= i < rows m -> 0 <= j < n -> at_ o i j = cast (fold_left fadd (map (at_ m i) (members (cols m) r j)) (fz 0)).
Proof.
  intros Hr HR Hn HO. set (C := cols m) in *. set (R := rows m) in *.
  destruct (loop (fun j (s : mat F * Z) => snd s = cut C r j /\ rows (fst s) = R /\ cols (fst s) = r /\
     forall i j', 0 <= i < R -> 0 <= j' < j -> at_ (fst s) i j' = cast (fold_left fadd (map (at_ m i) (members C r j')) (fz 0))) (compress_body m r) n (mk_mat R r (at_ out), 0)) as ([o b] & E & Q).
  - lia.
  - cbn [fst snd rows cols]. split; [unfold cut; cbn [Z.mul]; rewrite Z.div_small by lia; auto|]. split; [auto|]. split; [auto|]. intros; lia.
  - intros j [o b] Hj (Eb & ER & EC & EA). cbn [fst snd] in *. subst b. unfold compress_body. fold C R.
    assert (HJ : 0 <= (j + 1) * C <= n * C) by nia. rewrite cint_ok by lia. cbn [bind]. rewrite cint_ok by lia. cbn [bind]. rewrite Z.quot_div_nonneg by lia.
    fold (cut C r (j + 1)). pose proof (cut_end C r (j + 1) ltac:(lia) ltac:(lia) ltac:(lia)) as CE. rewrite (Z.min_l (cut C r (j + 1)) C) by lia.
    pose proof (cut_mono C r j ltac:(lia) ltac:(lia) ltac:(lia)) as CM.
    set (fill := fun o i => _).
    destruct (loop (fun i0 (o' : mat F) => rows o' = R /\ cols o' = r /\ forall i j', 0 <= i < R -> 0 <= j' < r -> at_ o' i j' =
       if (j' =? j) && (i <? i0) then cast (fold_left fadd (map (at_ m i) (members C r j)) (fz 0)) else at_ o i j') fill R o) as (o' & E' & R' & C' & A').
    + lia.
    + split; [auto|]. split; [auto|]. intros i j' Hi Hj'. destruct (Z.ltb_spec i 0); [lia|]. rewrite andb_false_r. auto.
    + intros i0 o' Hi0 (ER' & EC' & EA'). unfold fill.
      assert (S : foldM (fun x k => let! y := get m i0 k in Ok (fadd x y)) (span (cut C r j) (cut C r (j + 1))) (fz 0) = Ok (fold_left fadd (map (at_ m i0) (members C r j)) (fz 0))).
      { rewrite members_span by lia. assert (G : forall l s, (forall k, In k l -> 0 <= k < C) -> foldM (fun x k => let! y := get m i0 k in Ok (fadd x y)) l s = Ok (fold_left fadd (map (at_ m i0) l) s)).
        { induction l as [|k l IH]; intros s Hl; cbn [foldM map fold_left]; auto. rewrite get_ok by (fold R; fold C; auto; apply Hl; left; auto). cbn [bind]. apply IH. intros; apply Hl; right; auto. }
        apply G. intros k I. apply in_span in I. lia. }
      rewrite S. cbn [bind]. destruct (put_ok o' i0 j (cast (fold_left fadd (map (at_ m i0) (members C r j)) (fz 0)))) as (o2 & E2 & R2 & C2 & A2); [lia|lia|].
      exists o2. split; [exact E2|]. split; [lia|]. split; [lia|]. intros i j' Hi Hj'. rewrite A2, EA' by auto.
      destruct (Z.eqb_spec i i0) as [->|Ni]; cbn [andb].
      * destruct (Z.ltb_spec i0 i0), (Z.ltb_spec i0 (i0 + 1)); try lia. rewrite andb_true_r, andb_false_r. reflexivity.
      * replace (i <? i0 + 1) with (i <? i0); auto. destruct (Z.ltb_spec i i0), (Z.ltb_spec i (i0 + 1)); lia.
    + rewrite E'. cbn [bind]. eexists. split; [reflexivity|]. cbn [fst snd]. split; [auto|]. split; [auto|]. split; [auto|]. intros i j' Hi Hj'. rewrite A' by lia.
      destruct (Z.ltb_spec i R); [|lia]. rewrite andb_true_r. destruct (Z.eqb_spec j' j) as [->|Nj]; auto. apply EA; lia.
  - cbn [fst snd] in Q. destruct Q as (Eb & QR & QC & QA). exists o. rewrite E, Eb. auto.
Qed.
(** ** C90: column j of the compressed matrix is the sum of the columns of group j *)
Theorem C90_compress (out m : mat F) r : 1 <= r <= cols m -> 0 <= rows m -> r * cols m + r < 2 ^ 31 ->
  exists o, CompressCol fadd fz cast out m r = Ok o /\ rows o = rows m /\ cols o = r /\
    forall i j, 0 <= i < rows m -> 0 <= j < r -> at_ o i j = cast (fold_left fadd (map (at_ m i) (members (cols m) r j)) (fz 0)).
Proof.
  intros Hr HR HO. unfold CompressCol. fold (compress_body m r). destruct (Z.ltb_spec (cols m) r); [lia|]. destruct (Z.ltb_spec r 0); [lia|]. cbn [orb].
  destruct (compress_prefix out m r r Hr HR ltac:(lia) HO) as (o & -> & Q). cbn [bind]. eauto.
Qed.
(** ** Finding: for larger matrices the bound of a group overflows int, although every index is small *)
Theorem C90_compress_finding (out m : mat F) r : 1 <= r <= cols m -> 0 <= rows m -> 2 ^ 31 <= r * cols m + r -> CompressCol fadd fz cast out m r = UB.
Proof.
  intros Hr HR HO. unfold CompressCol. fold (compress_body m r). destruct (Z.ltb_spec (cols m) r); [lia|]. destruct (Z.ltb_spec r 0); [lia|]. cbn [orb].
  set (C := cols m) in *. destruct (Z.le_gt_cases (2 ^ 31) r) as [BIG|SM].
  - replace r with (1 + (r - 1)) at 2 by lia. rewrite upto_add by lia. change (upto 1) with [0]. cbn [app foldM]. unfold compress_body at 1. fold C. rewrite cint_ub by lia. reflexivity.
  - set (n := (2 ^ 31 - r + C - 1) / C - 1). pose proof (Z.div_mod (2 ^ 31 - r + C - 1) C ltac:(lia)) as D. pose proof (Z.mod_pos_bound (2 ^ 31 - r + C - 1) C ltac:(lia)) as B.
    assert (H1 : 2 ^ 31 <= (n + 1) * C + r) by (unfold n; nia). assert (H2 : n * C + r < 2 ^ 31) by (unfold n; nia). assert (H3 : 0 <= n < r) by (split; nia).
    destruct (compress_prefix out m r n Hr HR ltac:(lia) H2) as (o & E & _). fold C in E.
    assert (UE : upto r = upto n ++ [n] ++ map (Z.add (n + 1)) (upto (r - n - 1))) by (rewrite app_assoc, <- upto_snoc, <- upto_add by lia; f_equal; lia).
    rewrite UE, foldM_app, E. cbn [bind app foldM]. unfold compress_body at 1. fold C. unfold cint at 1. destruct ((- 2 ^ 31 <=? (n + 1) * C) && ((n + 1) * C <? 2 ^ 31)); [|reflexivity]. cbn [bind]. rewrite cint_ub by lia. reflexivity.
Qed.
End Compress.

Example C90_unit_example : exists M', InitUnitMatrix (fun z => z) (mk_mat 5 2 (fun _ _ => 7)) = Ok M' /\ map (fun i => map (at_ M' i) (upto 2)) (upto 5) = [[1; 0]; [1; 0]; [1; 0]; [0; 1]; [0; 1]].
Proof. eexists. split; [vm_compute; reflexivity|]. reflexivity. Qed.
Example C90_compress_example : exists M', CompressCol Z.add (fun z => z) (fun z => z) (mk_mat 0 0 (fun _ _ => 7)) (mk_mat 2 5 (fun i j => 10 * i + j)) 2 = Ok M' /\
  map (fun i => map (at_ M' i) (upto 2)) (upto 2) = [[3; 7]; [33; 27]].
Proof. eexists. split; [vm_compute; reflexivity|]. reflexivity. Qed.
Print Assumptions C90_groups. Print Assumptions C90_unit. Print Assumptions C90_unit_assert. Print Assumptions C90_unit_finding. Print Assumptions C90_compress. Print Assumptions C90_compress_finding.
