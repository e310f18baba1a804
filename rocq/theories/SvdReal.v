(** Property C91: with exact real numbers OrthonormalizeMatrix is the Gram-Schmidt process and ComputeSVD gives the decomposition of a projection of the matrix. *)
From Coq Require Import Reals Lra.
Require Import Verif.Common Verif.PlsiModel Verif.PlsiProps Verif.PlsiReal Verif.SvdModel Verif.SvdProps.
Open Scope R_scope.

(** ** Specification *)
(** the inner product of two vectors of n entries *)
Definition ip (n : Z) (v w : Z -> R) : R := rsum (fun k => v k * w k) (upto n).
(** what is left of v without its components along the first j columns of Q *)
Definition rest (Q : mat R) (j : Z) (v : Z -> R) (k : Z) : R := v k - rsum (fun a => ip (rows Q) (col Q a) v * at_ Q k a) (upto j).
(** column j of Q is the unit vector along what is left of column j of A, or 0 if that is shorter than eps *)
Definition gram_schmidt (A Q : mat R) : Prop :=
  rows Q = rows A /\ cols Q = cols A /\
  forall j, (0 <= j < cols A)%Z ->
    let r := rest Q j (col A j) in
    (sqrt (ip (rows A) r r) < eps -> forall k, at_ Q k j = 0) /\
    (eps <= sqrt (ip (rows A) r r) -> forall k, at_ Q k j = r k / sqrt (ip (rows A) r r)).
(** the columns are orthogonal, of length 1 or 0 *)
Definition ortho (Q : mat R) : Prop :=
  (forall a b, (0 <= a < cols Q)%Z -> (0 <= b < cols Q)%Z -> a <> b -> ip (rows Q) (col Q a) (col Q b) = 0) /\
  (forall a, (0 <= a < cols Q)%Z -> (forall k, at_ Q k a = 0) \/ ip (rows Q) (col Q a) (col Q a) = 1).
(** the projection of v on the columns of Q *)
Definition proj (Q : mat R) (v : Z -> R) (k : Z) : R := rsum (fun a => ip (rows Q) (col Q a) v * at_ Q k a) (upto (cols Q)).

(** ** Inner products *)
Lemma dot_ip n v w : dot n v w = ip n v w.
Proof. unfold dot, ip. induction (upto n) as [|x l IH]; cbn; auto. now rewrite IH. Qed.
Lemma ip_comm n v w : ip n v w = ip n w v.
Proof. apply rsum_ext. intros; ring. Qed.
Lemma ip_ext n v v' w w' : (forall k, (0 <= k < n)%Z -> v k = v' k) -> (forall k, (0 <= k < n)%Z -> w k = w' k) -> ip n v w = ip n v' w'.
Proof. intros H H'. apply rsum_ext. intros k I. apply in_upto in I. rewrite H, H' by auto. reflexivity. Qed.
Lemma ip_minus_r n v w w' : ip n v (fun k => w k - w' k) = ip n v w - ip n v w'.
Proof. unfold ip. rewrite <- rsum_minus. apply rsum_ext. intros; ring. Qed.
Lemma ip_plus_r n v w w' : ip n v (fun k => w k + w' k) = ip n v w + ip n v w'.
Proof. unfold ip. rewrite <- rsum_plus. apply rsum_ext. intros; ring. Qed.
Lemma ip_scal_r n v c w : ip n v (fun k => c * w k) = c * ip n v w.
Proof. unfold ip. rewrite <- rsum_scal. apply rsum_ext. intros; ring. Qed.
Lemma ip_sum_r {X} n v (c : X -> R) (w : X -> Z -> R) l : ip n v (fun k => rsum (fun a => c a * w a k) l) = rsum (fun a => c a * ip n v (w a)) l.
Proof.
  unfold ip. transitivity (rsum (fun k => rsum (fun a => c a * (v k * w a k)) l) (upto n)).
  - apply rsum_ext. intros k _. rewrite <- rsum_scal. apply rsum_ext. intros; ring.
  - rewrite rsum_swap. apply rsum_ext. intros a _. rewrite rsum_scal. reflexivity.
Qed.
Lemma ip_nonneg n v : 0 <= ip n v v.
Proof. apply rsum_nonneg. intros. nra. Qed.
Lemma ip_zero_r n v w : (forall k, w k = 0) -> ip n v w = 0.
Proof. intros H. unfold ip. rewrite (rsum_ext _ (fun _ => 0 * 0)) by (intros; rewrite H; ring). rewrite rsum_scal. ring. Qed.
Lemma rsum_zero {X} (f : X -> R) l : (forall x, In x l -> f x = 0) -> rsum f l = 0.
Proof. intros H. induction l as [|x l IH]; cbn; auto. rewrite H by (left; auto). rewrite IH; [lra|]. intros; apply H; right; auto. Qed.
Lemma rsum_one (f : Z -> R) n b : (0 <= b < n)%Z -> (forall a, (0 <= a < n)%Z -> a <> b -> f a = 0) -> rsum f (upto n) = f b.
Proof.
  intros Hb H. rewrite (rsum_ext f (fun a => if Z.eqb b a then f a else 0)).
  - apply rsum_single; [apply NoDup_upto|apply in_upto; auto].
  - intros a I. apply in_upto in I. destruct (Z.eqb_spec b a) as [->|N]; auto.
Qed.

(** ** Loops over columns *)
Lemma fold_upto {S} (P : Z -> S -> Prop) (f : S -> Z -> S) n s : (0 <= n)%Z -> P 0%Z s -> (forall j s, (0 <= j < n)%Z -> P j s -> P (j + 1)%Z (f s j)) -> P n (fold_left f (upto n) s).
Proof.
  intros Hn H0 Hs. assert (G : forall m, (Z.of_nat m <= n)%Z -> P (Z.of_nat m) (fold_left f (upto (Z.of_nat m)) s)).
  { induction m as [|m IH]; intros L; [exact H0|]. replace (Z.of_nat (Datatypes.S m)) with (Z.of_nat m + 1)%Z by lia. rewrite upto_snoc, fold_left_app by lia. cbn [fold_left]. apply Hs; [lia|]. apply IH; lia. }
  specialize (G (Z.to_nat n)). rewrite Z2Nat.id in G by lia. apply G. lia.
Qed.
Lemma ortho_rest_ok i js : forall M, ~ In i js -> NoDup js ->
  let M' := ortho_rest M i js in rows M' = rows M /\ cols M' = cols M /\
  forall j k, at_ M' k j = if existsb (Z.eqb j) js then at_ M k j - at_ M k i * ip (rows M) (col M i) (col M j) else at_ M k j.
Proof.
  induction js as [|x js IH]; intros M NI ND; cbv zeta; cbn [ortho_rest fold_left existsb]; [auto|].
  fold (ortho_rest (set_col M x (fun k => col M x k - col M i k * dot (rows M) (col M i) (col M x))) i js). set (M1 := set_col M x _).
  inversion ND as [|? ? N1 N2]; subst. destruct (IH M1) as (R & C & E); [intros I; apply NI; right; auto|auto|]. cbn [rows cols M1 set_col] in R, C. split; [auto|]. split; [auto|].
  intros j k. rewrite E. assert (EI : forall k, col M1 i k = col M i k) by (intros k0; unfold col, M1; cbn; destruct (Z.eqb_spec i x) as [->|]; [destruct NI; left; auto|auto]).
  destruct (Z.eqb_spec j x) as [->|N]; cbn [orb].
  - destruct (existsb (Z.eqb x) js) eqn:X; [apply existsb_exists in X; destruct X as (y & Iy & Ey); apply Z.eqb_eq in Ey; subst; contradiction|].
    unfold M1 at 1. cbn [at_ set_col]. rewrite Z.eqb_refl, dot_ip. reflexivity.
  - assert (EJ : forall k, col M1 j k = col M j k) by (intros k0; unfold col, M1; cbn; destruct (Z.eqb_spec j x); [contradiction|auto]).
    pose proof (EI k) as E1. pose proof (EJ k) as E2. unfold col in E1, E2. rewrite E1, E2. rewrite (ip_ext (rows M1) (col M1 i) (col M i) (col M1 j) (col M j)) by auto. reflexivity.
Qed.
Lemma NoDup_span b e : NoDup (span b e).
Proof. unfold span. apply FinFun.Injective_map_NoDup; [intros x y H; lia|apply NoDup_upto]. Qed.
Lemma existsb_span j b e : existsb (Z.eqb j) (span b e) = Z.leb b j && Z.ltb j e.
Proof.
  apply eq_true_iff_eq. rewrite existsb_exists, andb_true_iff, Z.leb_le, Z.ltb_lt. split.
  - intros (x & I & E). apply Z.eqb_eq in E. subst. apply in_span in I. auto.
  - intros H. exists j. rewrite Z.eqb_refl. split; auto. apply in_span. auto.
Qed.

(** ** Gram-Schmidt *)
Section Ortho.
Variable A : mat R.
Notation n := (rows A).
Notation c := (cols A).
Definition inv (i : Z) (M : mat R) : Prop :=
  rows M = n /\ cols M = c /\
  (forall a b, (0 <= a < i)%Z -> (0 <= b < c)%Z -> a <> b -> ip n (col M a) (col M b) = 0) /\
  (forall a, (0 <= a < i)%Z -> (forall k, at_ M k a = 0) \/ ip n (col M a) (col M a) = 1) /\
  (forall j, (0 <= j < i)%Z -> let r := rest M j (col A j) in
     (sqrt (ip n r r) < eps -> forall k, at_ M k j = 0) /\ (eps <= sqrt (ip n r r) -> forall k, at_ M k j = r k / sqrt (ip n r r))) /\
  (forall j, (i <= j < c)%Z -> forall k, at_ M k j = rest M i (col A j) k).
Lemma rest_ext M M' j v k : rows M' = rows M -> (forall a k, (0 <= a < j)%Z -> at_ M' k a = at_ M k a) -> rest M' j v k = rest M j v k.
Proof.
  intros R E. unfold rest. f_equal. apply rsum_ext. intros a I. apply in_upto in I. rewrite E by auto. rewrite R. rewrite (ip_ext (rows M) (col M' a) (col M a) v v); auto. intros k' _. apply E. auto.
Qed.
Lemma rest_succ M j v k : (0 <= j)%Z -> rest M (j + 1) v k = rest M j v k - ip (rows M) (col M j) v * at_ M k j.
Proof. intros H. unfold rest. rewrite upto_snoc, rsum_app by lia. cbn [rsum]. lra. Qed.
Lemma inv_step i M : (0 <= i < c)%Z -> inv i M -> inv (i + 1) (ortho_step M i).
Proof.
  intros Hi (ER & EC & I1 & I2 & I3 & I4).
  (* the new column *)
  unfold ortho_step. unfold norm. rewrite dot_ip, ER. set (r := rest M i (col A i)).
  assert (CI : ip n (col M i) (col M i) = ip n r r) by (apply ip_ext; intros; apply I4; lia). rewrite CI. set (nr := sqrt (ip n r r)).
  assert (OR : forall a, (0 <= a < i)%Z -> ip n (col M a) r = 0) by (intros a Ha; rewrite <- (I1 a i) by lia; apply ip_ext; auto; intros; symmetry; apply I4; lia).
  destruct (Rlt_dec nr eps) as [SM|BG].
  - (* dropped *)
    set (M' := set_col M i (fun _ => 0)).
    assert (EA : forall j k, j <> i -> at_ M' k j = at_ M k j) by (intros j k N; unfold M'; cbn; destruct (Z.eqb_spec j i); [contradiction|auto]).
    assert (EI : forall k, at_ M' k i = 0) by (intros k; unfold M'; cbn; rewrite Z.eqb_refl; auto).
    assert (EX : forall a b, a <> i -> b <> i -> ip n (col M' a) (col M' b) = ip n (col M a) (col M b)) by (intros a b Na Nb; apply ip_ext; intros; apply EA; auto).
    assert (Z1 : forall v, ip n (col M' i) v = 0) by (intros v; rewrite ip_comm; apply ip_zero_r; auto).
    assert (RE : forall j v k, (0 <= j <= i)%Z -> rest M' j v k = rest M j v k) by (intros j v k Hj; apply rest_ext; auto; intros a k' Ha; apply EA; lia).
    split; [auto|]. split; [auto|]. split; [|split; [|split]].
    + intros a b Ha Hb N. destruct (Z.eq_dec a i) as [->|Na]; [apply Z1|]. destruct (Z.eq_dec b i) as [->|Nb]; [rewrite ip_comm; apply Z1|]. rewrite EX by auto. apply I1; auto; lia.
    + intros a Ha. destruct (Z.eq_dec a i) as [->|Na]; [left; auto|]. rewrite EX by auto. destruct (I2 a ltac:(lia)) as [Q|Q]; [left|right; auto]. intros k. rewrite EA by auto. auto.
    + intros j Hj r'. destruct (Z.eq_dec j i) as [->|Nj].
      * assert (RR : ip n r' r' = ip n r r) by (apply ip_ext; intros; apply RE; lia). rewrite RR. fold nr. split; auto. intros; lra.
      * assert (RR : ip n r' r' = ip n (rest M j (col A j)) (rest M j (col A j))) by (apply ip_ext; intros; apply RE; lia). rewrite RR.
        destruct (I3 j ltac:(lia)) as (J1 & J2). split; intros H k; rewrite EA by auto; [apply J1; auto|]. unfold r'. rewrite RE by lia. apply J2; auto.
    + intros j Hj k. rewrite rest_succ by lia. rewrite RE, EA, EI by lia. rewrite I4 by lia. lra.
  - (* kept *)
    assert (NP : 0 < nr) by (unfold eps in BG; lra). assert (NN : nr * nr = ip n r r) by (unfold nr; apply sqrt_sqrt, ip_nonneg).
    set (M1 := set_col M i (fun k => col M i k * (1 / nr))).
    destruct (ortho_rest_ok i (span (i + 1) (cols M1)) M1) as (R' & C' & E'); [intros I; apply in_span in I; lia|apply NoDup_span|]. set (M' := ortho_rest M1 i (span (i + 1) (cols M1))) in *.
    cbn [rows cols M1 set_col] in R', C'. 
    assert (EI1 : forall k, at_ M1 k i = r k / nr) by (intros k; unfold M1; cbn; rewrite Z.eqb_refl; unfold col; rewrite I4 by lia; fold r; unfold Rdiv; ring).
    assert (EA1 : forall j k, j <> i -> at_ M1 k j = at_ M k j) by (intros j k N; unfold M1; cbn; destruct (Z.eqb_spec j i); [contradiction|auto]).
    assert (EI : forall k, at_ M' k i = r k / nr).
    { intros k. rewrite E', existsb_span. destruct (Z.leb_spec (i + 1) i); [lia|]. cbn [andb]. apply EI1. }
    assert (EL : forall j k, (j < i)%Z -> at_ M' k j = at_ M k j).
    { intros j k L. rewrite E', existsb_span. destruct (Z.leb_spec (i + 1) j); [lia|]. cbn [andb]. apply EA1. lia. }
    assert (EG : forall j k, (i < j < c)%Z -> at_ M' k j = at_ M k j - r k / nr * ip n (col M' i) (col M j)).
    { intros j k L. rewrite E', existsb_span. destruct (Z.leb_spec (i + 1) j); [|lia]. destruct (Z.ltb_spec j (cols M1)); [|cbn [cols M1 set_col] in *; lia]. cbn [andb]. rewrite EI1, EA1 by lia.
      cbn [rows M1 set_col]. rewrite ER. f_equal. f_equal. apply ip_ext; intros k' _; unfold col; [rewrite EI1, EI; auto|apply EA1; lia]. }
    clearbody M'. clear E' EI1 EA1 M1.
    assert (UQ : ip n (col M' i) (col M' i) = 1).
    { rewrite (ip_ext n _ (fun k => / nr * r k) _ (fun k => / nr * r k)) by (intros; unfold col; rewrite EI; unfold Rdiv; ring). rewrite ip_scal_r, ip_comm, ip_scal_r, <- NN. field. lra. }
    assert (OA : forall a, (0 <= a < i)%Z -> ip n (col M' a) (col M' i) = 0).
    { intros a Ha. rewrite (ip_ext n _ (col M a) _ (fun k => / nr * r k)) by (intros; unfold col; rewrite ?EI, ?EL by lia; unfold Rdiv; try ring; auto). rewrite ip_scal_r, OR by auto. ring. }
    assert (RE : forall j v k, (0 <= j <= i)%Z -> rest M' j v k = rest M j v k) by (intros j v k Hj; apply rest_ext; [congruence|]; intros a k' Ha; apply EL; lia).
    assert (XJ : forall j, (i < j < c)%Z -> ip n (col M' i) (col M j) = ip n (col M' i) (col A j)).
    { intros j Hj. rewrite (ip_ext n (col M' i) (col M' i) (col M j) (rest M' i (col A j))) by (auto; intros; rewrite RE by lia; apply I4; lia).
      unfold rest. rewrite ip_minus_r. rewrite (ip_sum_r n (col M' i) (fun a => ip (rows M') (col M' a) (col A j)) (fun a k => at_ M' k a)). rewrite rsum_zero; [lra|]. intros a Ia. apply in_upto in Ia.
      rewrite (ip_comm n (col M' i)). fold (col M' a). rewrite OA by lia. ring. }
    split; [congruence|]. split; [congruence|]. split; [|split; [|split]].
    + assert (G : forall a b, (0 <= a < i + 1)%Z -> (a < b < c)%Z -> ip n (col M' a) (col M' b) = 0).
      { intros a b Ha Hb. destruct (Z_lt_le_dec b i) as [Lb|Lb].
        - rewrite <- (I1 a b) by lia. apply ip_ext; intros; unfold col; apply EL; lia.
        - destruct (Z.eq_dec b i) as [->|Nb]; [apply OA; lia|].
          rewrite (ip_ext n (col M' a) (col M' a) (col M' b) (fun k => col M b k - ip n (col M' i) (col M b) * col M' i k)) by (auto; intros; unfold col at 1; rewrite EG by lia; unfold col; rewrite EI; ring).
          rewrite ip_minus_r, ip_scal_r. destruct (Z.eq_dec a i) as [->|Na]; [rewrite UQ; ring|]. rewrite OA by lia.
          rewrite (ip_ext n (col M' a) (col M a) (col M b) (col M b)) by (auto; intros; apply EL; lia). rewrite I1 by lia. ring. }
      intros a b Ha Hb N. destruct (Z_lt_le_dec a b); [apply G; lia|]. rewrite ip_comm. apply G; lia.
    + intros a Ha. destruct (Z.eq_dec a i) as [->|Na]; [right; auto|]. destruct (I2 a ltac:(lia)) as [Q|Q]; [left|right].
      * intros k. rewrite EL by lia. auto.
      * rewrite <- Q. apply ip_ext; intros; apply EL; lia.
    + intros j Hj r'. destruct (Z.eq_dec j i) as [->|Nj].
      * assert (RR : ip n r' r' = ip n r r) by (apply ip_ext; intros; apply RE; lia). rewrite RR. fold nr. split; [intros; lra|]. intros _ k. rewrite EI. unfold r'. rewrite RE by lia. reflexivity.
      * assert (RR : ip n r' r' = ip n (rest M j (col A j)) (rest M j (col A j))) by (apply ip_ext; intros; apply RE; lia). rewrite RR.
        destruct (I3 j ltac:(lia)) as (J1 & J2). split; intros H k; rewrite EL by lia; [apply J1; auto|]. unfold r'. rewrite RE by lia. apply J2; auto.
    + intros j Hj k. rewrite rest_succ by lia. rewrite RE, EG by lia. rewrite <- I4 by lia. rewrite R', ER, EI, XJ by lia. ring.
Qed.
(** ** C91: OrthonormalizeMatrix is the Gram-Schmidt process *)
Theorem C91_gram_schmidt : (0 <= c)%Z -> gram_schmidt A (OrthonormalizeMatrix A) /\ ortho (OrthonormalizeMatrix A).
Proof.
  intros Hc. assert (G : inv c (OrthonormalizeMatrix A)).
  { unfold OrthonormalizeMatrix. apply (fold_upto inv); auto; [|intros; apply inv_step; auto].
    split; [auto|]. split; [auto|]. split; [intros; lia|]. split; [intros; lia|]. split; [intros; lia|]. intros j Hj k. unfold rest. cbn. unfold col. lra. }
  destruct G as (R & C & G1 & G2 & G3 & _). split.
  - split; [auto|]. split; [auto|]. auto.
  - split; rewrite R, C; auto.
Qed.
End Ortho.

(** ** Projections *)
Section Proj.
Variable Q : mat R.
Hypothesis OQ : ortho Q.
Notation n := (rows Q).
Notation c := (cols Q).
Lemma ortho_self a : (0 <= a < c)%Z -> ip n (col Q a) (col Q a) = 0 \/ ip n (col Q a) (col Q a) = 1.
Proof. intros Ha. destruct OQ as (_ & O2). destruct (O2 a Ha) as [Z0|U]; auto. left. apply ip_zero_r. auto. Qed.
Lemma ip_proj a v : (0 <= a < c)%Z -> ip n (col Q a) (proj Q v) = ip n (col Q a) v.
Proof.
  intros Ha. unfold proj. rewrite (ip_sum_r n (col Q a) (fun b => ip n (col Q b) v) (fun b k => at_ Q k b)). fold (col Q).
  rewrite (rsum_one _ c a Ha); destruct OQ as (O1 & O2).
  - change (fun k => at_ Q k a) with (col Q a). destruct (O2 a Ha) as [Z0|U]; [|rewrite U; ring]. rewrite (ip_comm n (col Q a) v), (ip_zero_r n v (col Q a)) by auto. ring.
  - intros b Hb N. change (fun k => at_ Q k b) with (col Q b). rewrite (O1 a b) by auto. ring.
Qed.
Lemma proj_col b k : (0 <= b < c)%Z -> proj Q (col Q b) k = at_ Q k b.
Proof.
  intros Hb. unfold proj. destruct OQ as (O1 & O2). rewrite (rsum_one _ c b Hb).
  - destruct (O2 b Hb) as [Z0|U]; [rewrite Z0; ring|rewrite U; ring].
  - intros a Ha N. rewrite O1 by auto. ring.
Qed.
Lemma proj_minus v w k : proj Q (fun k => v k - w k) k = proj Q v k - proj Q w k.
Proof. unfold proj. rewrite <- rsum_minus. apply rsum_ext. intros a _. rewrite ip_minus_r. ring. Qed.
Lemma proj_ext v w k : (forall k, (0 <= k < n)%Z -> v k = w k) -> proj Q v k = proj Q w k.
Proof. intros H. unfold proj. apply rsum_ext. intros a _. rewrite (ip_ext n (col Q a) (col Q a) v w) by auto. reflexivity. Qed.
Lemma proj_comb (co : Z -> R) j k : (0 <= j <= c)%Z -> proj Q (fun k => rsum (fun a => co a * at_ Q k a) (upto j)) k = rsum (fun a => co a * at_ Q k a) (upto j).
Proof.
  intros Hj. unfold proj. transitivity (rsum (fun b => rsum (fun a => co a * (ip n (col Q b) (col Q a) * at_ Q k b)) (upto j)) (upto c)).
  - apply rsum_ext. intros b _. rewrite (ip_sum_r n (col Q b) co (fun a k => at_ Q k a)). rewrite Rmult_comm, <- rsum_scal. apply rsum_ext. intros a _. change (fun k => at_ Q k a) with (col Q a). ring.
  - rewrite rsum_swap. apply rsum_ext. intros a Ia. apply in_upto in Ia. rewrite rsum_scal. f_equal. 
    transitivity (proj Q (col Q a) k); [reflexivity|apply proj_col; lia].
Qed.
(** what is left is orthogonal to Q and not longer *)
Lemma left_orthogonal a v : (0 <= a < c)%Z -> ip n (col Q a) (fun k => v k - proj Q v k) = 0.
Proof. intros Ha. rewrite ip_minus_r, ip_proj by auto. ring. Qed.
Lemma left_shorter v : ip n (fun k => v k - proj Q v k) (fun k => v k - proj Q v k) <= ip n v v.
Proof.
  set (e := fun k => v k - proj Q v k). assert (E : ip n e (proj Q v) = 0).
  { unfold proj at 1. rewrite (ip_sum_r n e (fun a => ip n (col Q a) v) (fun a k => at_ Q k a)). apply rsum_zero. intros a Ia. apply in_upto in Ia. rewrite (ip_comm n e). change (fun k => at_ Q k a) with (col Q a). unfold e. rewrite left_orthogonal by auto. ring. }
  assert (V : ip n v v = ip n e e + ip n (proj Q v) (proj Q v)).
  { rewrite (ip_ext n v (fun k => e k + proj Q v k) v (fun k => e k + proj Q v k)) by (intros; unfold e; ring). rewrite ip_plus_r, (ip_comm n _ e), (ip_comm n _ (proj Q v)), !ip_plus_r, (ip_comm n (proj Q v) e), E. ring. }
  pose proof (ip_nonneg n (proj Q v)). lra.
Qed.
End Proj.

(** ** C91: every column of the matrix is within eps of its projection on the orthonormalized columns *)
Lemma eps_pos : 0 < eps. Proof. unfold eps. lra. Qed.
Theorem C91_near A j : (0 <= j < cols A)%Z ->
  let Q := OrthonormalizeMatrix A in let e := fun k => at_ A k j - proj Q (col A j) k in ip (rows A) e e < eps * eps.
Proof.
  intros Hj Q e. destruct (C91_gram_schmidt A) as ((ER & EC & G) & OQ); [lia|]. fold Q in ER, EC, G, OQ. specialize (G j Hj). cbv zeta in G. destruct G as (G1 & G2).
  set (r := rest Q j (col A j)) in *.
  assert (EE : forall k, (0 <= k < rows A)%Z -> e k = r k - proj Q r k).
  { intros k Hk. unfold e. set (s := fun k => rsum (fun a => ip (rows Q) (col Q a) (col A j) * at_ Q k a) (upto j)).
    assert (P : proj Q r k = proj Q (col A j) k - s k).
    { unfold r. change (rest Q j (col A j)) with (fun k => col A j k - s k). rewrite proj_minus. f_equal. unfold s at 1. rewrite (proj_comb Q OQ (fun a => ip (rows Q) (col Q a) (col A j)) j k) by lia. reflexivity. }
    rewrite P. unfold r, rest. fold (s k). unfold col. ring. }
  rewrite (ip_ext (rows A) e (fun k => r k - proj Q r k) e (fun k => r k - proj Q r k)) by auto. pose proof eps_pos as EP.
  destruct (Rlt_le_dec (sqrt (ip (rows A) r r)) eps) as [SM|BG].
  - rewrite <- ER. eapply Rle_lt_trans; [apply left_shorter; auto|]. rewrite ER. rewrite <- (sqrt_sqrt (ip (rows A) r r)) by apply ip_nonneg. pose proof (sqrt_pos (ip (rows A) r r)). nra.
  - specialize (G2 BG). set (nr := sqrt (ip (rows A) r r)) in *. 
    rewrite ip_zero_r; [nra|]. intros k. assert (RQ : forall k, r k = nr * col Q j k) by (intros k'; unfold col; rewrite G2; field; lra).
    assert (PR : proj Q r k = nr * at_ Q k j).
    { unfold proj. rewrite <- (proj_col Q OQ j k) by lia. unfold proj. rewrite <- rsum_scal. apply rsum_ext. intros a _. rewrite (ip_ext (rows Q) (col Q a) (col Q a) r (fun k => nr * col Q j k)) by auto. rewrite ip_scal_r. ring. }
    rewrite PR, RQ. unfold col. ring.
Qed.

(** ** The decomposition *)
Definition entry (U : mat R) (s : Z -> R) (V : mat R) (i j : Z) : R := rsum (fun k => at_ U i k * s k * at_ V j k) (upto (cols U)).
(** (U, s, V) is a singular value decomposition of the square matrix C *)
Definition is_svd (C : mat R) (f : mat R * (Z -> R) * mat R) : Prop :=
  let '(U, s, V) := f in let r := rows C in
  rows U = r /\ cols U = r /\ rows V = r /\ cols V = r /\
  (forall a b, (0 <= a < r)%Z -> (0 <= b < r)%Z -> ip r (col U a) (col U b) = (if Z.eqb a b then 1 else 0) /\ ip r (col V a) (col V b) = (if Z.eqb a b then 1 else 0)) /\
  (forall a b, (0 <= a < r)%Z -> (0 <= b < r)%Z -> entry U s V a b = at_ C a b) /\
  (forall a b, (0 <= a <= b)%Z -> (b < r)%Z -> 0 <= s b <= s a).
Lemma fold_rsum {X} (f : X -> R) l : fold_right (fun k s => f k + s) 0 l = rsum f l.
Proof. induction l as [|x l IH]; cbn; auto. now rewrite IH. Qed.
Lemma mul_ok A B : cols A = rows B -> exists M, mul A B = Ok M /\ rows M = rows A /\ cols M = cols B /\ forall i j, at_ M i j = rsum (fun k => at_ A i k * at_ B k j) (upto (cols A)).
Proof. intros E. unfold mul. rewrite E, Z.eqb_refl. eexists. split; [reflexivity|]. cbn [rows cols at_]. split; [auto|]. split; [auto|]. intros i j. apply fold_rsum. Qed.

Section Decompose.
Variables (A : mat R) (rank : Z).
Hypotheses (HR : (1 <= rows A)%Z) (HC : (1 <= cols A)%Z) (HK : (1 <= rank)%Z).
Notation r := (Z.min (Z.min (cols A) (rows A)) rank).
Hypothesis HO : ((rows A - 1) * r < 2 ^ 31)%Z.
(** the orthonormalized bases of the two sides *)
Definition right_basis (Y : mat R) : Prop := exists Y0, rows Y0 = cols A /\ cols Y0 = r /\ Y = OrthonormalizeMatrix Y0 /\
  forall j a, (0 <= j < cols A)%Z -> (0 <= a < r)%Z -> at_ Y0 j a = rsum (fun i => if group (rows A) r i a then at_ A i j else 0) (upto (rows A)).
Definition left_basis (Y Z : mat R) : Prop := exists B, rows B = rows A /\ cols B = r /\ Z = OrthonormalizeMatrix B /\
  forall i a, at_ B i a = rsum (fun j => at_ A i j * at_ Y j a) (upto (cols A)).
Lemma front_ok : exists Y Z C, svd_front A rank = Ok (Some (Y, Z, C)) /\ right_basis Y /\ left_basis Y Z /\ rows C = r /\ cols C = r /\
  rows Y = cols A /\ cols Y = r /\ rows Z = rows A /\ cols Z = r /\ ortho Y /\ ortho Z /\
  forall a b, at_ C a b = rsum (fun i => at_ Z i a * rsum (fun j => at_ A i j * at_ Y j b) (upto (cols A))) (upto (rows A)).
Proof.
  unfold svd_front. destruct (Z.leb_spec r 0); [lia|].
  destruct (C90_unit IZR (mk_mat (rows A) r (fun _ _ => 0))) as (R0 & -> & R0r & R0c & R0a); cbn [rows cols]; [lia|lia|]. cbn [bind rows cols] in *.
  destruct (mul_ok (tr A) R0) as (Y0 & -> & Y0r & Y0c & Y0a); [cbn; lia|]. cbn [bind rows cols tr] in *.
  destruct (C91_gram_schmidt Y0) as ((Yr & Yc & _) & OY); [lia|]. set (Y := OrthonormalizeMatrix Y0) in *.
  destruct (mul_ok A Y) as (B & -> & Br & Bc & Ba); [lia|]. cbn [bind].
  destruct (C91_gram_schmidt B) as ((Zr & Zc & _) & OZ); [lia|]. set (Z0 := OrthonormalizeMatrix B) in *.
  destruct (mul_ok (tr Z0) B) as (C & -> & Cr & Cc & Ca); [cbn; lia|]. cbn [bind rows cols tr at_] in *.
  exists Y, Z0, C. split; [auto|]. split; [|split; [|repeat split; try lia; auto]].
  - exists Y0. split; [auto|]. split; [lia|]. split; [auto|]. intros j a Hj Ha. rewrite Y0a. cbn [at_ tr]. apply rsum_ext. intros i Ii. apply in_upto in Ii. rewrite R0a by lia. destruct (group (rows A) r i a); ring.
  - exists B. split; [auto|]. split; [lia|]. split; auto.
  - apply OY. - apply OY. - apply OZ. - apply OZ.
  - intros a b. rewrite Ca. rewrite Zr, Br. apply rsum_ext. intros i _. rewrite Ba. reflexivity.
Qed.
Variable jacobi : mat R -> mat R * (Z -> R) * mat R.
(** ** C91: ComputeSVD gives the decomposition of the matrix projected on both bases *)
Theorem C91_svd : (forall Y Z C, svd_front A rank = Ok (Some (Y, Z, C)) -> is_svd C (jacobi C)) ->
  exists Y Z U s V, ComputeSVD jacobi A rank = Ok (Some (U, s, V)) /\
    right_basis Y /\ left_basis Y Z /\ ortho Y /\ ortho Z /\
    rows U = rows A /\ cols U = r /\ rows V = cols A /\ cols V = r /\
    (forall a b, (0 <= a <= b)%Z -> (b < r)%Z -> 0 <= s b <= s a) /\
    (forall i j, (0 <= i < rows A)%Z -> (0 <= j < cols A)%Z ->
       entry U s V i j = rsum (fun b => proj Z (fun i => ip (cols A) (fun j => at_ A i j) (col Y b)) i * at_ Y j b) (upto r)) /\
    ((forall a, (0 <= a < r)%Z -> exists k, at_ Y k a <> 0) -> forall a b, (0 <= a < r)%Z -> (0 <= b < r)%Z -> ip (cols A) (col V a) (col V b) = if Z.eqb a b then 1 else 0) /\
    ((forall a, (0 <= a < r)%Z -> exists k, at_ Z k a <> 0) -> forall a b, (0 <= a < r)%Z -> (0 <= b < r)%Z -> ip (rows A) (col U a) (col U b) = if Z.eqb a b then 1 else 0).
Proof.
  intros J. destruct front_ok as (Y & Z0 & C & E & RB & LB & Cr & Cc & Yr & Yc & Zr & Zc & OY & OZ & Ca). specialize (J Y Z0 C E). unfold ComputeSVD. rewrite E. cbn [bind].
  destruct (jacobi C) as [[U1 s] V1]. cbn [is_svd] in J. rewrite Cr in J. destruct J as (U1r & U1c & V1r & V1c & OUV & EC & ES).
  destruct (mul_ok Z0 U1) as (U & -> & Ur & Uc & Ua); [lia|]. cbn [bind]. destruct (mul_ok Y V1) as (V & -> & Vr & Vc & Va); [lia|]. cbn [bind].
  exists Y, Z0, U, s, V. split; [auto|]. split; [auto|]. split; [auto|]. split; [auto|]. split; [auto|]. split; [lia|]. split; [lia|]. split; [lia|]. split; [lia|]. split; [auto|].
  assert (ON : forall (W W1 X : mat R) n, ortho W -> rows W = n -> cols W = r -> (forall a b, (0 <= a < r)%Z -> (0 <= b < r)%Z -> ip r (col W1 a) (col W1 b) = if Z.eqb a b then 1 else 0) ->
     (forall i j, at_ X i j = rsum (fun k => at_ W i k * at_ W1 k j) (upto (cols W))) -> (forall a, (0 <= a < r)%Z -> exists k, at_ W k a <> 0) ->
     forall a b, (0 <= a < r)%Z -> (0 <= b < r)%Z -> ip n (col X a) (col X b) = if Z.eqb a b then 1 else 0).
  { intros W W1 X n (O1 & O2) Wr Wc OW1 EX NZ a b Ha Hb. rewrite <- (OW1 a b) by auto. rewrite Wc in EX, O1, O2. rewrite Wr in O1, O2.
    rewrite (ip_ext n (col X a) (fun i => rsum (fun k => at_ W1 k a * at_ W i k) (upto r)) (col X b) (fun i => rsum (fun k => at_ W1 k b * at_ W i k) (upto r)))
      by (intros i _; unfold col; rewrite EX; apply rsum_ext; intros; ring).
    rewrite (ip_sum_r n _ (fun k => at_ W1 k b) (fun k i => at_ W i k)). unfold ip at 2. apply rsum_ext. intros l Il. apply in_upto in Il. rewrite ip_comm. rewrite (ip_sum_r n _ (fun k => at_ W1 k a) (fun k i => at_ W i k)).
    rewrite (rsum_one _ r l Il).
    - change (fun i => at_ W i l) with (col W l). destruct (O2 l Il) as [Z1|U0]; [destruct (NZ l Il) as (k & N); destruct N; apply Z1|]. rewrite U0. unfold col. ring.
    - intros k Hk N. change (fun i => at_ W i l) with (col W l). change (fun i => at_ W i k) with (col W k). rewrite O1 by auto. ring. }
  split; [|split].
  - intros i j Hi Hj. unfold entry. rewrite Uc, U1c.
    transitivity (rsum (fun b => at_ Y j b * rsum (fun a => at_ Z0 i a * at_ C a b) (upto r)) (upto r)).
    + transitivity (rsum (fun k => rsum (fun b => rsum (fun a => at_ Y j b * (at_ Z0 i a * (at_ U1 a k * s k * at_ V1 b k))) (upto r)) (upto r)) (upto r)).
      * apply rsum_ext. intros k _. rewrite Ua, Va, Zc, Yc. rewrite <- rsum_scal. rewrite (rsum_ext _ (fun k0 => at_ Y j k0 * (at_ V1 k0 k * (rsum (fun k1 => at_ Z0 i k1 * at_ U1 k1 k) (upto r) * s k)))) by (intros; ring).
        apply rsum_ext. intros b _. rewrite <- (Rmult_comm (s k)), <- rsum_scal, <- rsum_scal, <- rsum_scal. apply rsum_ext. intros; ring.
      * rewrite rsum_swap. apply rsum_ext. intros b Ib. apply in_upto in Ib. rewrite <- rsum_scal. rewrite rsum_swap. apply rsum_ext. intros a Ia. apply in_upto in Ia. rewrite rsum_scal. f_equal. rewrite rsum_scal. f_equal.
        rewrite <- EC by auto. unfold entry. rewrite U1c. reflexivity.
    + apply rsum_ext. intros b Ib. apply in_upto in Ib. rewrite Rmult_comm. f_equal. unfold proj. rewrite Zc. apply rsum_ext. intros a Ia. apply in_upto in Ia. rewrite Ca. rewrite Rmult_comm. f_equal. rewrite Zr. apply rsum_ext. intros; reflexivity.
  - intros NZ. apply (ON Y V1 V); auto. intros; apply OUV; auto.
  - intros NZ. apply (ON Z0 U1 U); auto. intros; apply OUV; auto.
Qed.
(** the squared distance of U diag(s) t(V) from A *)
Definition distance2 (U : mat R) (s : Z -> R) (V : mat R) : R :=
  rsum (fun i => rsum (fun j => (at_ A i j - entry U s V i j) * (at_ A i j - entry U s V i j)) (upto (cols A))) (upto (rows A)).
(** ** C91: the distance to A is what the rows of A lose by projection on the right basis, up to eps *)
Theorem C91_distance : (forall Y Z C, svd_front A rank = Ok (Some (Y, Z, C)) -> is_svd C (jacobi C)) ->
  exists Y U s V, ComputeSVD jacobi A rank = Ok (Some (U, s, V)) /\ right_basis Y /\ ortho Y /\ rows Y = cols A /\
    distance2 U s V <= rsum (fun i => let e := fun j => at_ A i j - proj Y (fun j => at_ A i j) j in ip (cols A) e e) (upto (rows A)) + IZR r * (eps * eps).
Proof.
  intros J. destruct (C91_svd J) as (Y & Z0 & U & s & V & E & RB & LB & OY & OZ & Ur & Uc & Vr & Vc & _ & EN & _). exists Y, U, s, V. split; [auto|]. split; [auto|]. split; [auto|].
  assert (YS : rows Y = cols A /\ cols Y = r).
  { destruct RB as (Y0 & R1 & R2 & -> & _). destruct (C91_gram_schmidt Y0) as ((Q1 & Q2 & _) & _); [lia|]. lia. }
  destruct YS as (Yr & Yc). split; [auto|]. destruct LB as (B & Br & Bc & EZ & Ba).
  assert (ZS : rows Z0 = rows A /\ cols Z0 = r) by (subst Z0; destruct (C91_gram_schmidt B) as ((Q1 & Q2 & _) & _); [lia|lia]). destruct ZS as (Zr & Zc).
  set (row := fun i j => at_ A i j) in *.
  set (D := fun i j => row i j - proj Y (row i) j).
  set (G := fun b i => at_ B i b - proj Z0 (col B b) i).
  assert (EE : forall i j, (0 <= i < rows A)%Z -> (0 <= j < cols A)%Z -> at_ A i j - entry U s V i j = D i j + rsum (fun b => G b i * at_ Y j b) (upto r)).
  { intros i j Hi Hj. rewrite EN by auto. unfold D, G, proj at 2. rewrite Yc, Yr.
    rewrite (rsum_ext (fun b => (at_ B i b - proj Z0 (col B b) i) * at_ Y j b) (fun b => ip (cols A) (col Y b) (row i) * at_ Y j b - proj Z0 (fun i => ip (cols A) (fun j => at_ A i j) (col Y b)) i * at_ Y j b)).
    - rewrite rsum_minus. unfold row. ring.
    - intros b _. rewrite (proj_ext Z0 (col B b) (fun i => ip (cols A) (fun j => at_ A i j) (col Y b))) by (intros k _; unfold col at 1; rewrite Ba; reflexivity).
      rewrite Ba. rewrite (ip_comm _ (col Y b)). unfold ip at 2. unfold row, col. ring. }
  assert (OD : forall i b, (0 <= b < r)%Z -> ip (cols A) (D i) (col Y b) = 0).
  { intros i b Hb. rewrite ip_comm, <- Yr. apply left_orthogonal; auto. lia. }
  assert (YY : forall b b', (0 <= b < r)%Z -> (0 <= b' < r)%Z -> b <> b' -> ip (cols A) (col Y b) (col Y b') = 0) by (intros b b' H1 H2 N; rewrite <- Yr; apply (proj1 OY); auto; lia).
  assert (Y1 : forall b, (0 <= b < r)%Z -> ip (cols A) (col Y b) (col Y b) <= 1) by (intros b H1; rewrite <- Yr; destruct (ortho_self Y OY b) as [->| ->]; [lia|lra|lra]).
  assert (RI : forall i, (0 <= i < rows A)%Z -> rsum (fun j => (at_ A i j - entry U s V i j) * (at_ A i j - entry U s V i j)) (upto (cols A)) <= ip (cols A) (D i) (D i) + rsum (fun b => G b i * G b i) (upto r)).
  { intros i Hi. set (H := fun j => rsum (fun b => G b i * at_ Y j b) (upto r)).
    change (rsum (fun j => (at_ A i j - entry U s V i j) * (at_ A i j - entry U s V i j)) (upto (cols A))) with (ip (cols A) (fun j => at_ A i j - entry U s V i j) (fun j => at_ A i j - entry U s V i j)).
    rewrite (ip_ext (cols A) (fun j => at_ A i j - entry U s V i j) (fun j => D i j + H j) (fun j => at_ A i j - entry U s V i j) (fun j => D i j + H j)) by (intros j Hj; apply EE; auto).
    assert (DH : ip (cols A) (D i) H = 0).
    { unfold H. rewrite (ip_sum_r (cols A) (D i) (fun b => G b i) (fun b j => at_ Y j b)). apply rsum_zero. intros b Ib. apply in_upto in Ib. change (fun j => at_ Y j b) with (col Y b). rewrite OD by auto. ring. }
    assert (HH : ip (cols A) H H <= rsum (fun b => G b i * G b i) (upto r)).
    { unfold H at 2. rewrite (ip_sum_r (cols A) H (fun b => G b i) (fun b j => at_ Y j b)). apply rsum_le. intros b Ib. apply in_upto in Ib. rewrite ip_comm. unfold H. rewrite (ip_sum_r (cols A) _ (fun b => G b i) (fun b j => at_ Y j b)).
      rewrite (rsum_one _ r b Ib) by (intros b' Hb' N; change (fun j => at_ Y j b) with (col Y b); change (fun j => at_ Y j b') with (col Y b'); rewrite YY by auto; ring).
      change (fun j => at_ Y j b) with (col Y b). pose proof (Y1 b Ib). pose proof (Rle_0_sqr (G b i)) as SQ. unfold Rsqr in SQ. nra. }
    rewrite ip_plus_r, (ip_comm _ _ (D i)), (ip_comm _ _ H), !ip_plus_r, (ip_comm _ H (D i)), DH. lra. }
  eapply Rle_trans; [apply rsum_le; intros i Ii; apply in_upto in Ii; apply RI; auto|]. rewrite rsum_plus. apply Rplus_le_compat.
  - apply Req_le. apply rsum_ext. intros i _. reflexivity.
  - rewrite rsum_swap. replace (IZR r * (eps * eps)) with (rsum (fun _ => eps * eps) (upto r)) by (rewrite rsum_const, upto_len by lia; reflexivity).
    apply rsum_le. intros b Ib. apply in_upto in Ib. left. pose proof (C91_near B b ltac:(lia)) as N. cbv zeta in N. rewrite <- EZ, Br in N. exact N.
Qed.
(** ** C91: a matrix with no more rows than columns, decomposed with a rank of at least its rows, is recovered up to eps *)
Theorem C91_recover : (rows A <= cols A)%Z -> (rows A <= rank)%Z -> (forall Y Z C, svd_front A rank = Ok (Some (Y, Z, C)) -> is_svd C (jacobi C)) ->
  exists U s V, ComputeSVD jacobi A rank = Ok (Some (U, s, V)) /\ distance2 U s V <= 2 * IZR (rows A) * (eps * eps).
Proof.
  intros W K J. destruct (C91_distance J) as (Y & U & s & V & E & (Y0 & Y0r & Y0c & EY & Y0a) & OY & Yr & L). exists U, s, V. split; [auto|]. eapply Rle_trans; [exact L|].
  assert (RR : r = rows A) by lia. rewrite RR in *. replace (2 * IZR (rows A) * (eps * eps)) with (IZR (rows A) * (eps * eps) + IZR (rows A) * (eps * eps)) by ring. apply Rplus_le_compat_r.
  replace (IZR (rows A) * (eps * eps)) with (rsum (fun _ => eps * eps) (upto (rows A))) by (rewrite rsum_const, upto_len by lia; reflexivity).
  apply rsum_le. intros i Ii. apply in_upto in Ii. left. pose proof (C91_near Y0 i ltac:(lia)) as N. cbv zeta in N. rewrite <- EY, Y0r in N.
  assert (EI : forall j, (0 <= j < cols A)%Z -> at_ Y0 j i = at_ A i j).
  { intros j Hj. rewrite Y0a by auto. rewrite (rsum_one _ (rows A) i Ii).
    - unfold group. rewrite Z.leb_refl. destruct (Z.ltb_spec (i * rows A) ((i + 1) * rows A)); [reflexivity|nia].
    - intros a Ha Na. unfold group. destruct (Z.leb_spec (i * rows A) (a * rows A)); [|reflexivity]. destruct (Z.ltb_spec (a * rows A) ((i + 1) * rows A)); [nia|reflexivity]. }
  erewrite ip_ext; [exact N|..]; intros j Hj; cbv beta; rewrite EI by auto; f_equal; apply proj_ext; intros k Hk; unfold col; rewrite EI by lia; reflexivity.
Qed.
End Decompose.

(** ** C91: an empty matrix or a rank that is not positive is refused *)
Theorem C91_refused jacobi A rank : (rows A <= 0 \/ cols A <= 0 \/ rank <= 0)%Z -> ComputeSVD jacobi A rank = Ok None.
Proof. intros H. unfold ComputeSVD, svd_front. destruct (Z.leb_spec (Z.min (Z.min (cols A) (rows A)) rank) 0); [reflexivity|lia]. Qed.

(** ** Finding: a matrix with more rows than columns may be lost altogether, whatever the rank: the entries of (1, -1) cancel in the start matrix, so ComputeSVD returns true with U, V and the product all 0, although t(V) V = 1 is promised *)
Definition tall : mat R := mk_mat 2 1 (fun i _ => if Z.eqb i 0 then 1 else -1).
Theorem C91_tall_finding jacobi rank : (1 <= rank)%Z -> (forall Y Z C, svd_front tall rank = Ok (Some (Y, Z, C)) -> is_svd C (jacobi C)) ->
  exists U s V, ComputeSVD jacobi tall rank = Ok (Some (U, s, V)) /\ cols V = 1%Z /\
    (forall i j, (0 <= i < 2)%Z -> (0 <= j < 1)%Z -> entry U s V i j = 0) /\ (forall k a, at_ V k a = 0) /\ ip 1 (col V 0) (col V 0) <> 1.
Proof.
  intros Hr J. assert (RK : Z.min (Z.min (cols tall) (rows tall)) rank = 1%Z) by (cbn [rows cols tall]; lia).
  destruct (front_ok tall rank) as (Y & Z0 & C & E & (Y0 & Y0r & Y0c & EY & Y0a) & LB & Cr & Cc & Yr & Yc & Zr & Zc & OY & OZ & Ca); [cbn; lia|cbn; lia|lia|rewrite RK; cbn; lia|].
  rewrite RK in *. cbn [rows cols tall] in Y0r, Zr, Yr.
  assert (Y0z : at_ Y0 0 0 = 0).
  { rewrite Y0a by (cbn [cols tall]; lia). cbn [rows tall]. change (upto 2) with [0; 1]%Z. cbn [rsum]. unfold group. cbn [Z.mul Z.leb Z.compare Z.ltb Z.add andb Pos.compare Pos.compare_cont Pos.mul at_ tall Z.eqb]. lra. }
  assert (YZ : forall k, at_ Y k 0 = 0).
  { destruct (C91_gram_schmidt Y0) as ((_ & _ & G) & _); [lia|]. destruct (G 0%Z) as (G1 & _); [lia|]. rewrite <- EY in G1. apply G1. rewrite Y0r.
    assert (ZR : ip 1 (rest Y 0 (col Y0 0)) (rest Y 0 (col Y0 0)) = 0).
    { unfold ip. change (upto 1) with [0%Z]. cbn [rsum]. unfold rest, col. cbn [upto Z.to_nat seq map rsum]. rewrite Y0z. ring. }
    rewrite ZR, sqrt_0. apply eps_pos. }
  specialize (J Y Z0 C E). unfold ComputeSVD. rewrite E. cbn [bind]. destruct (jacobi C) as [[U1 s] V1]. cbn [is_svd] in J. rewrite Cr in J. destruct J as (U1r & U1c & V1r & V1c & _).
  destruct (mul_ok Z0 U1) as (U & -> & Ur & Uc & Ua); [lia|]. cbn [bind]. destruct (mul_ok Y V1) as (V & -> & Vr & Vc & Va); [lia|]. cbn [bind].
  assert (VZ : forall k a, at_ V k a = 0) by (intros k a; rewrite Va, Yc; change (upto 1) with [0%Z]; cbn [rsum]; rewrite YZ; ring).
  exists U, s, V. split; [auto|]. split; [lia|]. split; [|split; [auto|]].
  - intros i j _ _. unfold entry. apply rsum_zero. intros k _. rewrite VZ. ring.
  - rewrite ip_zero_r; [lra|]. intros k. unfold col. apply VZ.
Qed.

(** the decomposition of a matrix of one entry, which meets the contract of [jacobi] for every matrix of that size *)
Definition jacobi1 (C : mat R) : mat R * (Z -> R) * mat R :=
  let x := at_ C 0 0 in
  if Rlt_dec x 0 then (mk_mat 1 1 (fun _ _ => -1), fun _ => - x, mk_mat 1 1 (fun _ _ => 1)) else (mk_mat 1 1 (fun _ _ => 1), fun _ => x, mk_mat 1 1 (fun _ _ => 1)).
Lemma jacobi1_ok C : rows C = 1%Z -> is_svd C (jacobi1 C).
Proof.
  intros Rc. unfold jacobi1. destruct (Rlt_dec (at_ C 0 0) 0) as [N|N]; cbn [is_svd]; rewrite Rc; cbn [rows cols]; (split; [auto|]; split; [auto|]; split; [auto|]; split; [auto|]; split; [|split]).
  1,4: intros a b Ha Hb; assert (a = 0)%Z by lia; assert (b = 0)%Z by lia; subst; rewrite Z.eqb_refl; unfold ip, col; change (upto 1) with [0%Z]; cbn [rsum at_]; split; ring.
  1,3: intros a b Ha Hb; assert (a = 0)%Z by lia; assert (b = 0)%Z by lia; subst; unfold entry; cbn [cols]; change (upto 1) with [0%Z]; cbn [rsum at_]; ring.
  all: intros a b Ha Hb; lra.
Qed.
(** the matrix (3 4) with rank 1 or more *)
Example C91_example : exists U s V, ComputeSVD jacobi1 (mk_mat 1 2 (fun _ j => if Z.eqb j 0 then 3 else 4)) 5 = Ok (Some (U, s, V)) /\
  distance2 (mk_mat 1 2 (fun _ j => if Z.eqb j 0 then 3 else 4)) U s V <= 2 * IZR 1 * (eps * eps).
Proof.
  apply C91_recover; cbn [rows cols]; try lia. intros Y Z0 C E. apply jacobi1_ok.
  destruct (front_ok (mk_mat 1 2 (fun _ j => if Z.eqb j 0 then 3 else 4)) 5) as (Y' & Z' & C' & E' & _ & _ & Cr & _); cbn [rows cols]; try lia. rewrite E in E'. injection E' as _ _ <-. exact Cr.
Qed.
Example C91_tall_example : exists U s V, ComputeSVD jacobi1 tall 1 = Ok (Some (U, s, V)) /\ cols V = 1%Z /\
    (forall i j, (0 <= i < 2)%Z -> (0 <= j < 1)%Z -> entry U s V i j = 0) /\ (forall k a, at_ V k a = 0) /\ ip 1 (col V 0) (col V 0) <> 1.
Proof.
  apply C91_tall_finding; [lia|]. intros Y Z0 C E. apply jacobi1_ok.
  destruct (front_ok tall 1) as (Y' & Z' & C' & E' & _ & _ & Cr & _); cbn [rows cols tall]; try lia. rewrite E in E'. injection E' as _ _ <-. exact Cr.
Qed.
Print Assumptions C91_gram_schmidt. Print Assumptions C91_near. Print Assumptions C91_svd. Print Assumptions C91_distance. Print Assumptions C91_recover. Print Assumptions C91_refused. Print Assumptions C91_tall_finding. Print Assumptions C91_example.
