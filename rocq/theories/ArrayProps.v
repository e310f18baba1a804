(** Property C41: AlignedArray behaves as an array, over every history of operations on any number of arrays;
    no access outside a block, no use after free, no double free, no leak. *)
Require Import Verif.Common Verif.ArrayModel.
Ltac Zify.zify_post_hook ::= idtac.

Section Spec.
Context {T : Type} (zero : T) (szT : Z).
(** ** Specification. A program has variables 0..N-1, each dead or holding an array; an element is None while its
    value is not specified (grown without clearing). *)
Definition sarr := list (option T).
Definition sstate := list (option sarr).
Inductive op :=
| New (i : nat) (n : Z) (doClear : bool)
| NewCopy (i j : nat)
| NewMove (i j : nat)
| Assign (i j : nat)
| MoveAssign (i j : nat)
| Resize (i : nat) (n : Z) (doClear : bool)
| Clear (i : nat)
| Swap (i j : nat)
| Put (i : nat) (k : Z) (x : T)
| Destroy (i : nat).
(** a size that can be allocated: 0 <= n and n elements are fewer than 2^64 bytes *)
Definition size_ok (n : Z) : bool := (0 <=? n) && (n * szT <? 2 ^ 64).
Definition resized (l : sarr) (n : Z) (doClear : bool) : sarr :=
  firstn (Z.to_nat n) l ++ repeat (if doClear then Some zero else None) (Z.to_nat n - length l).
Definition dead (s : sstate) (i : nat) : bool := match nth_error s i with Some None => true | _ => false end.
Definition live (s : sstate) (i : nat) : option sarr := match nth_error s i with Some (Some l) => Some l | _ => None end.
(** effect of an operation; None when the program is not allowed to do it *)
Definition spec_step (o : op) (s : sstate) : option sstate :=
  match o with
  | New i n c => if dead s i && size_ok n then Some (upd s i (Some (resized [] n c))) else None
  | NewCopy i j => match live s j with Some l => if dead s i then Some (upd s i (Some l)) else None | None => None end
  | NewMove i j => match live s j with Some l => if dead s i then Some (upd (upd s i (Some l)) j (Some [])) else None | None => None end
  | Assign i j => match live s i, live s j with Some _, Some l => Some (upd s i (Some l)) | _, _ => None end
  | MoveAssign i j => match live s i, live s j with
                      | Some _, Some l => if Nat.eqb i j then None else Some (upd (upd s i (Some l)) j (Some []))
                      | _, _ => None end
  | Resize i n c => match live s i with Some l => if size_ok n then Some (upd s i (Some (resized l n c))) else None | None => None end
  | Clear i => match live s i with Some _ => Some (upd s i (Some [])) | None => None end
  | Swap i j => match live s i, live s j with Some a, Some b => Some (upd (upd s i (Some b)) j (Some a)) | _, _ => None end
  | Put i k x => match live s i with
                 | Some l => if (0 <=? k) && (k <? zlen l) then Some (upd s i (Some (upd l (Z.to_nat k) (Some x)))) else None
                 | None => None end
  | Destroy i => match live s i with Some _ => Some (upd s i None) | None => None end
  end.
Fixpoint spec_run (p : list op) (s : sstate) : option sstate :=
  match p with [] => Some s | o :: r => match spec_step o s with Some s' => spec_run r s' | None => None end end.

(** ** The same program on the model. [junk] is the content of memory allocated by this operation. *)
Definition mstate : Type := heap (T := T) * list (option arr).
Definition mlive (v : list (option arr)) (i : nat) : res arr := match nth_error v i with Some (Some a) => Ok a | _ => UB end.
Definition model_step (o : op) (junk : Z -> T) (m : mstate) : res mstate :=
  let (h, v) := m in
  match o with
  | New i n c => let! (h, a) := construct zero szT junk h n c in Ok (h, upd v i (Some a))
  | NewCopy i j => let! b := mlive v j in let! (h, a) := copy_construct szT junk h b in Ok (h, upd v i (Some a))
  | NewMove i j => let! b := mlive v j in let (a, b) := move_construct b in Ok (h, upd (upd v i (Some a)) j (Some b))
  | Assign i j => let! a := mlive v i in let! b := mlive v j in let! (h, a) := assign szT junk h a b in Ok (h, upd v i (Some a))
  | MoveAssign i j => let! a := mlive v i in let! b := mlive v j in
      if Nat.eqb i j then Ok (h, upd v i (Some (move_assign_self a)))
      else let (a, b) := move_assign a b in Ok (h, upd (upd v i (Some a)) j (Some b))
  | Resize i n c => let! a := mlive v i in let! (h, a) := resize zero szT junk h a n c in Ok (h, upd v i (Some a))
  | Clear i => let! a := mlive v i in Ok (h, upd v i (Some (clear a)))
  | Swap i j => let! a := mlive v i in let! b := mlive v j in let (a, b) := swap a b in Ok (h, upd (upd v i (Some a)) j (Some b))
  | Put i k x => let! a := mlive v i in let! h := put h a k x in Ok (h, v)
  | Destroy i => let! a := mlive v i in let! h := destruct_ h a in Ok (h, upd v i None)
  end.
Fixpoint model_run (p : list (op * (Z -> T))) (m : mstate) : res mstate :=
  match p with [] => Ok m | (o, j) :: r => let! m := model_step o j m in model_run r m end.

(** ** Proof *)
Hypothesis HsT : 0 < szT.

Definition own (v : option arr) : option nat := match v with Some a => p_ a | None => None end.
Definition arr_ok (h : heap) (a : arr) (s : sarr) : Prop :=
  size_ a = zlen s /\ 0 <= size_ a <= allocSize_ a /\ allocSize_ a * szT < 2 ^ 64 /\
  match p_ a with
  | None => allocSize_ a = 0
  | Some b => exists l, nth_error h b = Some (Some l) /\ zlen l = allocSize_ a /\
              forall k x, nth_error s k = Some (Some x) -> nth_error l k = Some x
  end.
Definition obj_ok (h : heap) (v : option arr) (s : option sarr) : Prop :=
  match v, s with None, None => True | Some a, Some s => arr_ok h a s | _, _ => False end.
Record R (s : sstate) (m : mstate) : Prop := {
  R_len : length (snd m) = length s;
  R_obj : forall i v o, nth_error (snd m) i = Some v -> nth_error s i = Some o -> obj_ok (fst m) v o;
  R_disj : forall i j v w b, nth_error (snd m) i = Some v -> nth_error (snd m) j = Some w -> own v = Some b -> own w = Some b -> i = j;
  R_leak : forall b l, nth_error (fst m) b = Some (Some l) -> exists i v, nth_error (snd m) i = Some v /\ own v = Some b }.

Lemma upd_upd {A} (l : list A) n x y : upd (upd l n x) n y = upd l n y.
Proof using. clear. revert n. induction l; intros [|n]; cbn [upd]; auto. f_equal. auto. Qed.
Lemma upd_id {A} (l : list A) n x : nth_error l n = Some x -> upd l n x = l.
Proof using. clear. revert n. induction l; intros [|n]; cbn [upd nth_error]; intros; try congruence. f_equal. auto. Qed.
Lemma nth_upd {A} (l : list A) n m x y : nth_error (upd l n x) m = Some y -> (n = m /\ y = x /\ (n < length l)%nat) \/ (n <> m /\ nth_error l m = Some y).
Proof using.
  clear. intros H. destruct (Nat.eq_dec n m) as [->|N].
  - left. assert (L: (m < length l)%nat) by (rewrite <- (upd_length l m x); apply nth_error_Some; congruence).
    rewrite nth_error_upd_eq in H by auto. split; auto. split; [congruence|auto].
  - right. rewrite nth_error_upd_ne in H by auto. auto.
Qed.

(** copying and clearing *)
Lemma copy_ne n : forall i h b c ls ld, b <> c -> nth_error h b = Some (Some ld) -> nth_error h c = Some (Some ls) ->
  0 <= i -> i + Z.of_nat n <= zlen ls -> i + Z.of_nat n <= zlen ld ->
  exists ld', copy n i h (Some b) (Some c) = Ok (upd h b (Some ld')) /\ length ld' = length ld /\
    forall k, nth_error ld' k = if (i <=? Z.of_nat k) && (Z.of_nat k <? i + Z.of_nat n) then nth_error ls k else nth_error (ld : list T) k.
Proof using.
  clear. induction n as [|n IH]; intros i h b c ls ld N Hb Hc Hi L1 L2.
  - exists ld. cbn [copy]. rewrite upd_id by auto. repeat split; auto. intros k. destruct ((i <=? Z.of_nat k) && (Z.of_nat k <? i + Z.of_nat 0)) eqn:E; auto. lia.
  - cbn [copy]. unfold hread, hwrite, hget. rewrite Hc. cbn [bind].
    destruct (nth_error ls (Z.to_nat i)) as [x|] eqn:Ex.
    2:{ apply nth_error_None in Ex. unfold zlen in *. lia. }
    assert (rd ls i = Ok x) as ->. { unfold rd. destruct (Z.ltb_spec i 0); [lia|]. rewrite Ex. auto. }
    cbn [bind]. rewrite Hb. cbn [bind]. rewrite wr_ok by lia. cbn [bind].
    assert (Lb: (b < length h)%nat) by (apply nth_error_Some; congruence).
    destruct (IH (i + 1) (upd h b (Some (upd ld (Z.to_nat i) x))) b c ls (upd ld (Z.to_nat i) x)) as (ld' & E & L & F); auto; try lia.
    { apply nth_error_upd_eq. auto. }
    { rewrite nth_error_upd_ne; auto. }
    { unfold zlen in *. rewrite upd_length. lia. }
    exists ld'. rewrite E, upd_upd. split; auto. rewrite upd_length in L. split; auto. intros k. rewrite F.
    destruct (Nat.eq_dec (Z.to_nat i) k) as [<-|Nk].
    + rewrite nth_error_upd_eq by (unfold zlen in *; lia). 
      destruct ((i + 1 <=? Z.of_nat (Z.to_nat i)) && _) eqn:E1; [lia|].
      destruct ((i <=? Z.of_nat (Z.to_nat i)) && (Z.of_nat (Z.to_nat i) <? i + Z.of_nat (S n))) eqn:E2; [auto|lia].
    + rewrite nth_error_upd_ne by auto.
      replace ((i <=? Z.of_nat k) && (Z.of_nat k <? i + Z.of_nat (S n))) with ((i + 1 <=? Z.of_nat k) && (Z.of_nat k <? i + 1 + Z.of_nat n)) by lia. auto.
Qed.
Lemma copy_self n : forall i h b ls, nth_error h b = Some (Some ls) -> 0 <= i -> i + Z.of_nat n <= zlen ls ->
  copy (T := T) n i h (Some b) (Some b) = Ok h.
Proof using.
  clear. induction n as [|n IH]; intros i h b ls Hb Hi L; auto. cbn [copy]. unfold hread, hwrite, hget. rewrite Hb. cbn [bind].
  destruct (nth_error ls (Z.to_nat i)) as [x|] eqn:Ex.
  2:{ apply nth_error_None in Ex. unfold zlen in *. lia. }
  assert (rd ls i = Ok x) as ->. { unfold rd. destruct (Z.ltb_spec i 0); [lia|]. rewrite Ex. auto. }
  cbn [bind]. rewrite wr_ok by lia. cbn [bind]. rewrite (upd_id ls _ x) by auto. rewrite upd_id by auto. apply (IH (i + 1) h b ls); auto; lia.
Qed.
Lemma setZero_ok n : forall i h b ld off, nth_error h b = Some (Some ld) -> 0 <= i -> 0 <= off -> off + i + Z.of_nat n <= zlen ld ->
  exists ld', setZero zero n i h (Some b) off = Ok (upd h b (Some ld')) /\ length ld' = length ld /\
    forall k, nth_error ld' k = if (off + i <=? Z.of_nat k) && (Z.of_nat k <? off + i + Z.of_nat n) then Some zero else nth_error ld k.
Proof using.
  clear. induction n as [|n IH]; intros i h b ld off Hb Hi Ho L.
  - exists ld. cbn [setZero]. rewrite upd_id by auto. repeat split; auto. intros k. destruct ((off + i <=? Z.of_nat k) && _) eqn:E; auto. lia.
  - cbn [setZero]. unfold hwrite, hget. rewrite Hb. cbn [bind]. rewrite wr_ok by lia. cbn [bind].
    assert (Lb: (b < length h)%nat) by (apply nth_error_Some; congruence).
    destruct (IH (i + 1) (upd h b (Some (upd ld (Z.to_nat (off + i)) zero))) b (upd ld (Z.to_nat (off + i)) zero) off) as (ld' & E & L' & F); auto; try lia.
    { apply nth_error_upd_eq. auto. }
    { unfold zlen in *. rewrite upd_length. lia. }
    exists ld'. rewrite E, upd_upd. split; auto. rewrite upd_length in L'. split; auto. intros k. rewrite F.
    destruct (Nat.eq_dec (Z.to_nat (off + i)) k) as [<-|Nk].
    + rewrite nth_error_upd_eq by (unfold zlen in *; lia).
      match goal with |- (if ?c then _ else _) = (if ?d then _ else _) => destruct c; auto; destruct d eqn:E2; auto; lia end.
    + rewrite nth_error_upd_ne by auto.
      replace ((off + i <=? Z.of_nat k) && (Z.of_nat k <? off + i + Z.of_nat (S n))) with ((off + (i + 1) <=? Z.of_nat k) && (Z.of_nat k <? off + (i + 1) + Z.of_nat n)) by lia. auto.
Qed.

(** frame of an operation that works on one array *)
Record frame (h : heap (T := T)) (o : option nat) (h' : heap (T := T)) (o' : option nat) : Prop := {
  F_keep : forall b, o <> Some b -> (b < length h)%nat -> nth_error h' b = nth_error h b;
  F_own : o' = o \/ o' = None \/ exists q, o' = Some q /\ (length h <= q)%nat;
  F_leak : forall b l, nth_error h' b = Some (Some l) -> o' = Some b \/ (o <> Some b /\ (b < length h)%nat) }.
Lemma frame_same h b l : nth_error h b = Some (Some l) -> frame h (Some b) h (Some b).
Proof using.
  clear. intros H. split; auto. intros b' l' H'. destruct (Nat.eq_dec b b') as [->|]; auto. right. split; [congruence|]. apply nth_error_Some. congruence.
Qed.
Lemma frame_upd h b l l' : nth_error h b = Some (Some l) -> frame h (Some b) (upd h b (Some l')) (Some b).
Proof using.
  clear. intros H. split; auto.
  - intros c N L. apply nth_error_upd_ne. congruence.
  - intros c m Hc. apply nth_upd in Hc as [(<- & _)|(N & Hc)]; auto. right. split; [congruence|]. apply nth_error_Some. congruence.
Qed.
Lemma R_step s h v i x o h' x' o' : R s (h, v) -> nth_error v i = Some x -> nth_error s i = Some o ->
  frame h (own x) h' (own x') -> obj_ok h' x' o' -> R (upd s i o') (h', upd v i x').
Proof using.
  clear HsT. intros HR Hx Ho [Fk Fo Fl] Hok. destruct HR as [RL RO RD RK]. cbn [fst snd] in *.
  assert (Li: (i < length v)%nat) by (apply nth_error_Some; congruence).
  (* blocks owned by others are old and kept *)
  assert (Keep: forall j w b, j <> i -> nth_error v j = Some w -> own w = Some b -> (b < length h)%nat /\ nth_error h' b = nth_error h b /\ own x <> Some b).
  { intros j w b N Hj Hb.
    assert (Nx: own x <> Some b) by (intros E; apply N; symmetry; eapply RD; eauto).
    assert (Lb: (b < length h)%nat).
    { destruct (nth_error s j) as [oj|] eqn:Ej. 2:{ apply nth_error_None in Ej. assert (j < length v)%nat by (apply nth_error_Some; congruence). lia. }
      specialize (RO j w oj Hj Ej). destruct w as [a|]; [|discriminate]. destruct oj as [sj|]; [|contradiction]. cbn [own] in Hb.
      destruct RO as (_ & _ & _ & Hp). rewrite Hb in Hp. destruct Hp as (l & Hl & _). apply nth_error_Some. congruence. }
    split; auto. }
  split; cbn [fst snd].
  - rewrite !upd_length. auto.
  - intros j w oj Hj Hoj. apply nth_upd in Hj as [(<- & -> & _)|(N & Hj)].
    + rewrite nth_error_upd_eq in Hoj by lia. injection Hoj as <-. auto.
    + rewrite nth_error_upd_ne in Hoj by auto. specialize (RO j w oj Hj Hoj).
      destruct w as [a|], oj as [sj|]; auto. destruct RO as (A1 & A2 & A3 & A4). split; auto. split; auto. split; auto.
      destruct (p_ a) as [b|] eqn:Eb; auto. destruct (Keep j (Some a) b) as (_ & E & _); auto. rewrite E. auto.
  - intros j k w z b Hj Hk Hw Hz. apply nth_upd in Hj as [(<- & -> & _)|(N & Hj)]; apply nth_upd in Hk as [(<- & -> & _)|(N' & Hk)]; auto.
    + exfalso. destruct (Keep k z b) as (L & _ & Nx); auto. destruct Fo as [E|[E|(q & E & Lq)]]; try congruence. assert (q = b) by congruence. lia.
    + exfalso. destruct (Keep j w b) as (L & _ & Nx); auto. destruct Fo as [E|[E|(q & E & Lq)]]; try congruence. assert (q = b) by congruence. lia.
    + eapply RD; eauto.
  - intros b l Hb. destruct (Fl b l Hb) as [E|[N L]].
    + exists i, x'. split; auto. apply nth_error_upd_eq. auto.
    + rewrite Fk in Hb by auto. destruct (RK b l Hb) as (j & w & Hj & Hw). exists j, w. split; auto.
      rewrite nth_error_upd_ne; auto. intros <-. congruence.
Qed.
(** operations that exchange the blocks of two variables *)
Lemma R_swap s h v i j x y o p x' y' o' p' : R s (h, v) -> i <> j -> nth_error v i = Some x -> nth_error v j = Some y ->
  nth_error s i = Some o -> nth_error s j = Some p -> own x' = own y -> own y' = own x -> obj_ok h x' o' -> obj_ok h y' p' ->
  R (upd (upd s i o') j p') (h, upd (upd v i x') j y').
Proof using.
  clear HsT. intros [RL RO RD RK] N Hx Hy Ho Hp Ex Ey Ox Oy. cbn [fst snd] in *.
  assert (Li: (i < length v)%nat) by (apply nth_error_Some; congruence).
  assert (Lj: (j < length v)%nat) by (apply nth_error_Some; congruence).
  split; cbn [fst snd].
  - rewrite !upd_length. auto.
  - intros k w ok Hk Hok. apply nth_upd in Hk as [(<- & -> & _)|(N1 & Hk)].
    + rewrite nth_error_upd_eq in Hok by (rewrite upd_length; lia). injection Hok as <-. auto.
    + rewrite nth_error_upd_ne in Hok by auto. apply nth_upd in Hk as [(<- & -> & _)|(N2 & Hk)].
      * rewrite nth_error_upd_eq in Hok by lia. injection Hok as <-. auto.
      * rewrite nth_error_upd_ne in Hok by auto. eauto.
  - set (sw := fun k => if Nat.eqb k i then j else if Nat.eqb k j then i else k).
    assert (Q: forall k w b, nth_error (upd (upd v i x') j y') k = Some w -> own w = Some b -> exists w', nth_error v (sw k) = Some w' /\ own w' = Some b).
    { intros k w b Hk Hw. unfold sw. apply nth_upd in Hk as [(<- & -> & _)|(N1 & Hk)].
      - destruct (Nat.eqb_spec j i); [congruence|]. rewrite Nat.eqb_refl. exists x. split; congruence.
      - apply nth_upd in Hk as [(<- & -> & _)|(N2 & Hk)].
        + rewrite Nat.eqb_refl. exists y. split; congruence.
        + destruct (Nat.eqb_spec k i), (Nat.eqb_spec k j); try congruence. eauto. }
    intros k m w z b Hk Hm Hw Hz. destruct (Q k w b Hk Hw) as (w' & K1 & K2). destruct (Q m z b Hm Hz) as (z' & M1 & M2).
    pose proof (RD _ _ _ _ _ K1 M1 K2 M2) as E. unfold sw in E.
    destruct (Nat.eqb_spec k i), (Nat.eqb_spec m i), (Nat.eqb_spec k j), (Nat.eqb_spec m j); congruence.
  - intros b l Hb. destruct (RK b l Hb) as (k & w & Hk & Hw).
    destruct (Nat.eq_dec k i) as [->|Ni]; [|destruct (Nat.eq_dec k j) as [->|Nj]].
    + exists j, y'. split; [apply nth_error_upd_eq; rewrite upd_length; auto|]. congruence.
    + exists i, x'. split; [rewrite nth_error_upd_ne by auto; apply nth_error_upd_eq; auto|]. congruence.
    + exists k, w. split; auto. rewrite !nth_error_upd_ne; auto.
Qed.

Lemma alloc_ok (junk : Z -> T) h n : 0 <= n -> n * szT < 2 ^ 64 ->
  exists l : list T, alloc szT junk h n = (h ++ [Some l], Some (length h)) /\ zlen l = n.
Proof using HsT.
  intros H1 H2. unfold alloc. rewrite Z.mod_small by nia. rewrite Z.div_mul by lia. eexists. split; [reflexivity|].
  unfold zlen. rewrite map_length, seq_length. lia.
Qed.
(** allocCopy: the new block starts with a copy, the old one is freed *)
Lemma allocCopy_ok (junk : Z -> T) h a allocN src copyN ls : arr_ok h a ls \/ (p_ a = None) ->
  0 <= copyN <= allocN -> allocN * szT < 2 ^ 64 ->
  (copyN = 0 \/ exists c (l : list T), src = Some c /\ nth_error h c = Some (Some l) /\ copyN <= zlen l) ->
  exists (l' : list T) h', allocCopy szT junk h a allocN src copyN = Ok (h', Arr (Some (length h)) (size_ a) allocN) /\
    nth_error h' (length h) = Some (Some l') /\ zlen l' = allocN /\ frame h (p_ a) h' (Some (length h)) /\
    forall c l, src = Some c -> nth_error h c = Some (Some l) -> forall k, Z.of_nat k < copyN -> nth_error l' k = nth_error l k.
Proof using HsT.
  intros Ha Hc Hn Hs. unfold allocCopy. destruct (alloc_ok junk h allocN ltac:(lia) Hn) as (l0 & -> & L0).
  assert (Hq: nth_error (h ++ [Some l0]) (length h) = Some (Some l0)) by (rewrite nth_error_app2, Nat.sub_diag by lia; auto).
  assert (C: exists l', copy (Z.to_nat copyN) 0 (h ++ [Some l0]) (Some (length h)) src = Ok (h ++ [Some l']) /\ zlen l' = allocN /\
     forall c l, src = Some c -> nth_error h c = Some (Some l) -> forall k, Z.of_nat k < copyN -> nth_error l' k = nth_error l k).
  { destruct Hs as [->|(c & l & -> & Hl & Ll)].
    - exists l0. split; auto. split; auto. intros. lia.
    - assert (Lc: (c < length h)%nat) by (apply nth_error_Some; congruence).
      destruct (copy_ne (Z.to_nat copyN) 0 (h ++ [Some l0]) (length h) c l l0) as (l' & E & L' & F); auto; try lia.
      { rewrite nth_error_app1 by lia. auto. }
      exists l'. rewrite E. rewrite upd_app_exact. split; auto. split; [unfold zlen in *; lia|].
      intros c' m Ec Hm k Hk. assert (m = l) as -> by congruence. rewrite F.
      destruct ((0 <=? Z.of_nat k) && _) eqn:E1; auto. lia. }
  destruct C as (l' & -> & L' & Fl). cbn [bind].
  destruct (p_ a) as [b|] eqn:Eb.
  - assert (Hb: exists l, nth_error h b = Some (Some l)).
    { destruct Ha as [(_ & _ & _ & Hp)|]; [|congruence]. rewrite Eb in Hp. destruct Hp as (l & Hl & _). eauto. }
    destruct Hb as [lb Hb]. assert (Lb: (b < length h)%nat) by (apply nth_error_Some; congruence).
    cbn [AlignedFree]. rewrite nth_error_app1, Hb by lia. cbn [bind].
    exists l', (upd (h ++ [Some l']) b None). split; auto. split; [rewrite nth_error_upd_ne, nth_error_app2, Nat.sub_diag by lia; auto|]. split; auto. split; auto.
    split.
    + intros c N Lc. rewrite nth_error_upd_ne by congruence. apply nth_error_app1. auto.
    + right. right. eexists. split; [reflexivity|]. lia.
    + intros c l Hcl. apply nth_upd in Hcl as [(<- & E & _)|(N & Hcl)]; [discriminate|].
      destruct (Nat.lt_ge_cases c (length h)); [right; split; [congruence|auto]|]. left.
      rewrite nth_error_app2 in Hcl by auto. destruct (c - length h)%nat as [|z] eqn:Ez; [f_equal; lia|]. destruct z; discriminate.
  - cbn [AlignedFree bind]. exists l', (h ++ [Some l']). split; auto. split; [rewrite nth_error_app2, Nat.sub_diag by lia; auto|]. split; auto. split; auto. split.
    + intros c N Lc. apply nth_error_app1. auto.
    + right. right. eexists. split; [reflexivity|]. lia.
    + intros c l Hcl. destruct (Nat.lt_ge_cases c (length h)); [right; split; [congruence|auto]|]. left.
      rewrite nth_error_app2 in Hcl by auto. destruct (c - length h)%nat as [|z] eqn:Ez; [f_equal; lia|]. destruct z; discriminate.
Qed.

Lemma frame_trans_upd h o h' b l' l'' : frame h o h' (Some b) -> nth_error h' b = Some (Some l') -> (o = Some b \/ (length h <= b)%nat) -> frame h o (upd h' b (Some l'')) (Some b).
Proof using.
  clear. intros [F1 F2 F3] Hb Ho. split; auto.
  - intros c N L. rewrite nth_error_upd_ne; auto. destruct Ho; [congruence|lia].
  - intros c l Hc. apply nth_upd in Hc as [(<- & _)|(N & Hc)]; auto. apply (F3 _ _ Hc).
Qed.

Lemma nth_repeat_some {A} (x y : A) n k : nth_error (repeat x n) k = Some y -> y = x.
Proof using. clear. revert k. induction n; intros [|k]; cbn [repeat nth_error]; intros; try congruence. eauto. Qed.
Lemma resized_len l n c : 0 <= n -> zlen (resized l n c) = n.
Proof using. clear. intros. unfold resized, zlen. rewrite app_length, firstn_length, repeat_length. lia. Qed.
Lemma resized_nth l n c k x : 0 <= n -> nth_error (resized l n c) k = Some (Some x) ->
  (Z.of_nat k < n) /\ (((k < length l)%nat /\ nth_error l k = Some (Some x)) \/ ((length l <= k)%nat /\ c = true /\ x = zero)).
Proof using.
  clear. intros Hn H. assert (L: (k < length (resized l n c))%nat) by (apply nth_error_Some; congruence).
  pose proof (resized_len l n c Hn) as Q. unfold zlen in Q. split; [lia|]. unfold resized in H.
  destruct (Nat.lt_ge_cases k (length (firstn (Z.to_nat n) l))) as [H1|H1].
  - left. rewrite nth_error_app1 in H by auto. rewrite firstn_length in H1. split; [lia|].
    rewrite <- (firstn_skipn (Z.to_nat n) l). rewrite nth_error_app1; auto. rewrite firstn_length. auto.
  - right. rewrite nth_error_app2 in H by auto. apply nth_repeat_some in H. rewrite firstn_length in H1. split; [lia|].
    destruct c; [split; congruence|discriminate].
Qed.

(** resize; the object may be freshly constructed ([o] None, empty) *)
Lemma resize_ok (junk : Z -> T) h a l n c : arr_ok h a l -> 0 <= n -> n * szT < 2 ^ 64 ->
  exists h' a', resize zero szT junk h a n c = Ok (h', a') /\ frame h (p_ a) h' (p_ a') /\ arr_ok h' a' (resized l n c).
Proof using HsT.
  intros Ha Hn Hz. pose proof Ha as (A1 & A2 & A3 & A4). unfold resize. destruct (Z.leb_spec n (size_ a)) as [H|H].
  - exists h, (Arr (p_ a) n (allocSize_ a)). split; auto. split.
    + destruct (p_ a) as [b|] eqn:Eb; cbn [p_].
      * destruct A4 as (m & Hm & _). eapply frame_same; eauto.
      * split; auto. intros b l0 Hb. right. split; [congruence|]. apply nth_error_Some. congruence.
    + split; cbn [size_ allocSize_ p_]; [rewrite resized_len; auto|]. split; [lia|]. split; auto. destruct (p_ a) as [b|]; auto.
      destruct A4 as (m & Hm & Lm & Fm). exists m. split; auto. split; auto. intros k x Hk. apply resized_nth in Hk as (K1 & [(K2 & K3)|(K2 & _)]); auto.
      unfold zlen in A1. lia.
  - assert (G: exists h1 a1 m, (if allocSize_ a <? n then allocCopy szT junk h a n (p_ a) (size_ a) else Ok (h, a)) = Ok (h1, a1) /\
       frame h (p_ a) h1 (p_ a1) /\ size_ a1 = size_ a /\ n <= allocSize_ a1 /\ allocSize_ a1 * szT < 2 ^ 64 /\ (exists b, p_ a1 = Some b /\ nth_error h1 b = Some (Some m) /\ (p_ a = Some b \/ (length h <= b)%nat)) /\ zlen m = allocSize_ a1 /\
       forall k x, nth_error l k = Some (Some x) -> nth_error m k = Some x).
    { destruct (Z.ltb_spec (allocSize_ a) n) as [H2|H2].
      - destruct (allocCopy_ok junk h a n (p_ a) (size_ a) l) as (l' & h' & E & E1 & E2 & E3 & E4); auto; try lia.
        { destruct (p_ a) as [b|]; [right; destruct A4 as (m & Hm & Lm & _); exists b, m; split; auto; split; auto; lia|left; lia]. }
        exists h', (Arr (Some (length h)) (size_ a) n), l'. split; auto. cbn [p_ size_ allocSize_]. split; auto. split; auto. split; [lia|]. split; auto. split; [exists (length h); auto|]. split; auto.
        intros k x Hk. assert (Lk: (k < length l)%nat) by (apply nth_error_Some; congruence).
        destruct (p_ a) as [b|]; [|unfold zlen in A1; lia]. destruct A4 as (m & Hm & Lm & Fm). rewrite (E4 b m); auto. unfold zlen in A1. lia.
      - destruct (p_ a) as [b|] eqn:Eb; [|lia]. destruct A4 as (m & Hm & Lm & Fm).
        exists h, a, m. rewrite Eb. split; auto. split; [eapply frame_same; eauto|]. split; auto. split; auto. split; auto. split; [exists b; auto|]. split; auto. }
    destruct G as (h1 & a1 & m & -> & G1 & G2 & G3 & G3' & (b & Gb & Gm & Go) & G4 & G5). cbn [bind].
    destruct c.
    + rewrite Gb. destruct (setZero_ok (Z.to_nat (n - size_ a1)) 0 h1 b m (size_ a1)) as (m' & E & L' & F); auto; try lia.
      rewrite E. cbn [bind]. eexists _, _. split; [reflexivity|]. cbn [p_]. split.
      * rewrite Gb in G1. eapply frame_trans_upd; eauto.
      * split; cbn [size_ allocSize_ p_]; [rewrite resized_len; auto|]. split; [lia|]. split; auto. exists m'. split; [apply nth_error_upd_eq, nth_error_Some; congruence|].
        split; [unfold zlen in *; lia|]. intros k x Hk. apply resized_nth in Hk as (K1 & [(K2 & K3)|(K2 & _ & ->)]); auto; rewrite F.
        -- destruct ((size_ a1 + 0 <=? Z.of_nat k) && _) eqn:E1; auto. unfold zlen in A1. lia.
        -- destruct ((size_ a1 + 0 <=? Z.of_nat k) && _) eqn:E1; auto. unfold zlen in A1. lia.
    + cbn [bind]. eexists _, _. split; [reflexivity|]. cbn [p_]. split; auto.
      split; cbn [size_ allocSize_ p_]; [rewrite resized_len; auto|]. split; [lia|]. split; auto. rewrite Gb. exists m. split; auto. split; [lia|].
      intros k x Hk. apply resized_nth in Hk as (K1 & [(K2 & K3)|(K2 & Q & _)]); auto. discriminate.
Qed.
Lemma null_ok h : arr_ok h (Arr None 0 0) [].
Proof using. clear HsT. split; auto. cbn. split; [lia|]. split; [lia|]. auto. Qed.

Lemma assign_ok (junk : Z -> T) h a b la lb : arr_ok h a la -> arr_ok h b lb ->
  (p_ a = p_ b -> a = b) ->
  exists h' a', assign szT junk h a b = Ok (h', a') /\ frame h (p_ a) h' (p_ a') /\ arr_ok h' a' lb.
Proof using HsT.
  intros Ha Hb Hd. pose proof Ha as (A1 & A2 & A3 & A4). pose proof Hb as (B1 & B2 & B3 & B4). unfold assign.
  assert (BN: size_ b = 0 \/ exists c m, p_ b = Some c /\ nth_error h c = Some (Some m) /\ zlen m = allocSize_ b /\ (forall k x, nth_error lb k = Some (Some x) -> nth_error m k = Some x)).
  { destruct (p_ b) as [c|]; [right; destruct B4 as (m & ?); exists c, m; tauto|left; lia]. }
  destruct (Z.ltb_spec (allocSize_ a) (size_ b)) as [H|H].
  - destruct (allocCopy_ok junk h a (size_ b) (p_ b) (size_ b) la) as (l' & h' & E & E1 & E2 & E3 & E4); auto; try nia.
    { destruct BN as [?|(c & m & ? & ? & ? & _)]; auto. right. exists c, m. split; auto. split; auto. lia. }
    rewrite E. cbn [bind]. eexists _, _. split; [reflexivity|]. cbn [p_]. split; auto. split; cbn [size_ allocSize_ p_]; auto. split; [lia|]. split; [nia|].
    exists l'. split; auto. split; auto. intros k x Hk. assert (Lk: (k < length lb)%nat) by (apply nth_error_Some; congruence).
    destruct BN as [?|(c & m & Ec & Hm & Lm & Fm)]; [unfold zlen in B1; lia|]. rewrite (E4 c m); auto. unfold zlen in B1. lia.
  - destruct BN as [Z0|(c & m & Ec & Hm & Lm & Fm)].
    + rewrite Z0. cbn [copy Z.to_nat bind]. exists h, (Arr (p_ a) 0 (allocSize_ a)). split; [reflexivity|].
      cbn [p_]. split.
      * destruct (p_ a) as [d|]; [destruct A4 as (ma & Hma & _); eapply frame_same; eauto|]. split; auto. intros q l0 Hq. right. split; [congruence|]. apply nth_error_Some. congruence.
      * assert (lb = []) as -> by (apply length_zero_iff_nil; unfold zlen in B1; lia). split; auto. cbn [size_ allocSize_ p_]. split; [lia|]. split; auto.
        destruct (p_ a); auto. destruct A4 as (ma & Hma & Lma & _). exists ma. split; auto. split; auto. intros [|k]; discriminate.
    + destruct (p_ a) as [d|] eqn:Ed.
      * destruct A4 as (ma & Hma & Lma & Fma). rewrite Ec. destruct (Nat.eq_dec d c) as [->|N].
        -- assert (a = b) as <- by (apply Hd; congruence). rewrite (copy_self _ 0 h c m) by (auto; lia). cbn [bind].
           eexists _, _. split; [reflexivity|]. cbn [p_]. rewrite ?Ed. split; [eapply frame_same; eauto|].
           split; cbn [size_ allocSize_ p_]; auto. split; [lia|]. split; auto. rewrite ?Ed. exists m. auto.
        -- destruct (copy_ne (Z.to_nat (size_ b)) 0 h d c m ma) as (m' & E & L' & F); auto; try lia.
           rewrite E. cbn [bind]. eexists _, _. split; [reflexivity|]. cbn [p_]. rewrite ?Ed. split; [eapply frame_upd; eauto|].
           split; cbn [size_ allocSize_ p_]; auto. split; [lia|]. split; auto. rewrite ?Ed. exists m'. split; [apply nth_error_upd_eq, nth_error_Some; congruence|].
           split; [unfold zlen in *; lia|]. intros k x Hk. assert (Lk: (k < length lb)%nat) by (apply nth_error_Some; congruence). rewrite F.
           destruct ((0 <=? Z.of_nat k) && _) eqn:E1; auto. unfold zlen in B1. lia.
      * assert (Q: size_ b = 0) by lia. rewrite Q. cbn [copy Z.to_nat bind]. exists h, (Arr (p_ a) 0 (allocSize_ a)). split; [reflexivity|]. cbn [p_]. rewrite ?Ed. split.
        { split; auto. intros q l0 Hq. right. split; [congruence|]. apply nth_error_Some. congruence. }
        assert (lb = []) as -> by (apply length_zero_iff_nil; unfold zlen in B1; lia). split; auto. cbn [size_ allocSize_ p_]. split; [lia|]. split; auto; rewrite ?Ed; auto.
Qed.

Lemma live_rel s m i l : R s m -> live s i = Some l -> exists a, nth_error (snd m) i = Some (Some a) /\ mlive (snd m) i = Ok a /\ nth_error s i = Some (Some l) /\ arr_ok (fst m) a l.
Proof using.
  clear HsT. intros HR H. unfold live in H. destruct (nth_error s i) as [[l'|]|] eqn:E; try discriminate. injection H as ->.
  assert (L: (i < length (snd m))%nat) by (rewrite (R_len _ _ HR); apply nth_error_Some; congruence).
  destruct (nth_error (snd m) i) as [v|] eqn:Ev; [|apply nth_error_None in Ev; lia].
  pose proof (R_obj _ _ HR i v (Some l) Ev E) as O. destruct v as [a|]; [|contradiction]. exists a. unfold mlive. rewrite Ev. auto.
Qed.
Lemma dead_rel s m i : R s m -> dead s i = true -> nth_error (snd m) i = Some None /\ nth_error s i = Some None.
Proof using.
  clear HsT. intros HR H. unfold dead in H. destruct (nth_error s i) as [[l'|]|] eqn:E; try discriminate. split; auto.
  assert (L: (i < length (snd m))%nat) by (rewrite (R_len _ _ HR); apply nth_error_Some; congruence).
  destruct (nth_error (snd m) i) as [v|] eqn:Ev; [|apply nth_error_None in Ev; lia].
  pose proof (R_obj _ _ HR i v None Ev E) as O. destruct v as [a|]; [contradiction|]. auto.
Qed.
Lemma arr_ok_clear h a l : arr_ok h a l -> arr_ok h (clear a) [].
Proof using.
  clear HsT. intros (A1 & A2 & A3 & A4). split; auto. unfold clear. cbn [size_ allocSize_ p_]. split; [lia|]. split; auto. destruct (p_ a); auto.
  destruct A4 as (m & ? & ? & ?). exists m. split; auto. split; auto. intros [|k]; discriminate.
Qed.

Lemma step_ok o junk s s' m : R s m -> spec_step o s = Some s' -> exists m', model_step o junk m = Ok m' /\ R s' m'.
Proof using HsT.
  intros HR H. destruct m as [h v]. destruct o as [i n c|i j|i j|i j|i j|i n c|i|i j|i k x|i]; cbn [spec_step model_step] in *.
  - destruct (dead s i) eqn:Ed; [|discriminate]. destruct (size_ok n) eqn:Es; [|discriminate]. cbn [andb] in H. injection H as <-.
    destruct (dead_rel _ _ _ HR Ed) as [D1 D2]. cbn [snd] in D1. unfold size_ok in Es.
    destruct (resize_ok junk h (Arr None 0 0) [] n c (null_ok h)) as (h' & a' & E & F & O); try lia.
    unfold construct. rewrite E. cbn [bind]. eexists. split; [reflexivity|]. eapply R_step; eauto.
  - destruct (live s j) as [l|] eqn:El; [|discriminate]. destruct (dead s i) eqn:Ed; [|discriminate]. injection H as <-.
    destruct (dead_rel _ _ _ HR Ed) as [D1 D2]. destruct (live_rel _ _ _ _ HR El) as (b & L1 & L2 & L3 & L4). cbn [fst snd] in *. rewrite L2. cbn [bind].
    destruct (assign_ok junk h (Arr None 0 0) b [] l (null_ok h) L4) as (h' & a' & E & F & O).
    { cbn [p_]. intros Q. destruct L4 as (A1 & A2 & A3 & A4). rewrite <- Q in A4. destruct b as [pb sb ab]. cbn [p_ size_ allocSize_] in *. f_equal; [auto|lia|lia]. }
    unfold copy_construct. rewrite E. cbn [bind]. eexists. split; [reflexivity|]. eapply R_step; eauto.
  - destruct (live s j) as [l|] eqn:El; [|discriminate]. destruct (dead s i) eqn:Ed; [|discriminate]. injection H as <-.
    destruct (dead_rel _ _ _ HR Ed) as [D1 D2]. destruct (live_rel _ _ _ _ HR El) as (b & L1 & L2 & L3 & L4). cbn [fst snd] in *. rewrite L2. cbn [bind move_construct].
    eexists. split; [reflexivity|]. eapply R_swap with (x := None) (y := Some b); eauto; try congruence. apply null_ok.
  - destruct (live s i) as [la|] eqn:Ea; [|discriminate]. destruct (live s j) as [lb|] eqn:Eb; [|discriminate]. injection H as <-.
    destruct (live_rel _ _ _ _ HR Ea) as (a & A1 & A2 & A3 & A4). destruct (live_rel _ _ _ _ HR Eb) as (b & B1 & B2 & B3 & B4). cbn [fst snd] in *. rewrite A2, B2. cbn [bind].
    destruct (assign_ok junk h a b la lb A4 B4) as (h' & a' & E & F & O).
    { intros Q. destruct (p_ a) as [q|] eqn:Eq.
      - assert (i = j) as <-; [|congruence]. apply (R_disj _ _ HR i j (Some a) (Some b) q); auto.
      - destruct A4 as (_ & A5 & _ & A6), B4 as (_ & B5 & _ & B6). rewrite Eq in A6. rewrite <- Q in B6. destruct a as [pa sa aa], b as [pb sb ab]. cbn [p_ size_ allocSize_] in *. f_equal; [congruence|lia|lia]. }
    rewrite E. cbn [bind]. eexists. split; [reflexivity|]. eapply R_step; eauto.
  - destruct (live s i) as [la|] eqn:Ea; [|discriminate]. destruct (live s j) as [lb|] eqn:Eb; [|discriminate]. destruct (Nat.eqb_spec i j) as [|N]; [discriminate|]. injection H as <-.
    destruct (live_rel _ _ _ _ HR Ea) as (a & A1 & A2 & A3 & A4). destruct (live_rel _ _ _ _ HR Eb) as (b & B1 & B2 & B3 & B4). cbn [fst snd] in *. rewrite A2, B2. cbn [bind move_assign swap].
    eexists. split; [reflexivity|]. eapply R_swap with (x := Some a) (y := Some b); eauto. apply arr_ok_clear with la; auto.
  - destruct (live s i) as [la|] eqn:Ea; [|discriminate]. destruct (size_ok n) eqn:Es; [|discriminate]. injection H as <-.
    destruct (live_rel _ _ _ _ HR Ea) as (a & A1 & A2 & A3 & A4). cbn [fst snd] in *. rewrite A2. cbn [bind]. unfold size_ok in Es.
    destruct (resize_ok junk h a la n c A4) as (h' & a' & E & F & O); try lia. rewrite E. cbn [bind]. eexists. split; [reflexivity|]. eapply R_step; eauto.
  - destruct (live s i) as [la|] eqn:Ea; [|discriminate]. injection H as <-.
    destruct (live_rel _ _ _ _ HR Ea) as (a & A1 & A2 & A3 & A4). cbn [fst snd] in *. rewrite A2. cbn [bind]. eexists. split; [reflexivity|].
    eapply R_step; eauto; [|apply arr_ok_clear with la; auto]. cbn [own clear p_]. destruct A4 as (_ & _ & _ & A4). destruct (p_ a) as [b|].
    + destruct A4 as (l0 & ? & _). eapply frame_same; eauto.
    + split; auto. intros b l0 Hb. right. split; [congruence|]. apply nth_error_Some. congruence.
  - destruct (live s i) as [la|] eqn:Ea; [|discriminate]. destruct (live s j) as [lb|] eqn:Eb; [|discriminate]. injection H as <-.
    destruct (live_rel _ _ _ _ HR Ea) as (a & A1 & A2 & A3 & A4). destruct (live_rel _ _ _ _ HR Eb) as (b & B1 & B2 & B3 & B4). cbn [fst snd] in *. rewrite A2, B2. cbn [bind swap].
    eexists. split; [reflexivity|]. destruct (Nat.eq_dec i j) as [<-|N].
    + assert (b = a) as -> by congruence. assert (lb = la) as -> by congruence. rewrite !upd_upd, !upd_id by auto. auto.
    + eapply R_swap with (x := Some a) (y := Some b); eauto.
  - destruct (live s i) as [la|] eqn:Ea; [|discriminate]. destruct ((0 <=? k) && (k <? zlen la)) eqn:Ek; [|discriminate]. injection H as <-.
    destruct (live_rel _ _ _ _ HR Ea) as (a & A1 & A2 & A3 & A4). cbn [fst snd] in *. rewrite A2. cbn [bind]. pose proof A4 as (C1 & C2 & C3 & C4).
    unfold put, hwrite, hget. destruct (p_ a) as [b|] eqn:Eb; [|lia]. destruct C4 as (l & Hl & Ll & Fl). rewrite Hl. cbn [bind]. rewrite wr_ok by lia. cbn [bind].
    eexists. split; [reflexivity|]. rewrite <- (upd_id v i (Some a)) by auto.
    eapply R_step; eauto; [cbn [own]; rewrite Eb; eapply frame_upd; eauto|]. cbn [obj_ok]. split; [unfold zlen; rewrite upd_length; auto|]. split; auto. split; auto. rewrite Eb.
    exists (upd l (Z.to_nat k) x). split; [apply nth_error_upd_eq, nth_error_Some; congruence|]. split; [unfold zlen; rewrite upd_length; auto|].
    intros q y Hq. apply nth_upd in Hq as [(<- & E & _)|(N & Hq)].
    + rewrite nth_error_upd_eq by (unfold zlen in *; lia). congruence.
    + rewrite nth_error_upd_ne by auto. auto.
  - destruct (live s i) as [la|] eqn:Ea; [|discriminate]. injection H as <-.
    destruct (live_rel _ _ _ _ HR Ea) as (a & A1 & A2 & A3 & A4). cbn [fst snd] in *. rewrite A2. cbn [bind]. unfold destruct_. destruct A4 as (_ & _ & _ & A4).
    destruct (p_ a) as [b|] eqn:Eb; cbn [AlignedFree].
    + destruct A4 as (l & Hl & _). rewrite Hl. cbn [bind]. eexists. split; [reflexivity|]. eapply R_step; eauto; [|exact I]. cbn [own]. rewrite Eb. split; auto.
      * intros c N L. apply nth_error_upd_ne. congruence.
      * intros c l' Hc. apply nth_upd in Hc as [(<- & E & _)|(N & Hc)]; [discriminate|]. right. split; [congruence|]. apply nth_error_Some. congruence.
    + cbn [bind]. eexists. split; [reflexivity|]. eapply R_step; eauto; [|exact I]. cbn [own]. rewrite Eb. split; auto.
      intros c l Hc. right. split; [congruence|]. apply nth_error_Some. congruence.
Qed.

(** C41: run any allowed program on N variables. The model runs without undefined behaviour, whatever the memory
    allocator returns. Afterwards every live variable has the size and the contents of the plain list, and when
    every variable is destroyed every block has been freed. *)
Theorem C41_array : forall N (p : list (op * (Z -> T))) s, spec_run (map fst p) (repeat None N) = Some s ->
  exists h v, model_run p ([], repeat None N) = Ok (h, v) /\
  (forall i l, nth_error s i = Some (Some l) -> exists a, nth_error v i = Some (Some a) /\ size_ a = zlen l /\
     forall k x, nth_error l k = Some (Some x) -> get h a (Z.of_nat k) = Ok x) /\
  (Forall (fun o => o = None) s -> Forall (fun b => b = None) h).
Proof using HsT.
  intros N p s H.
  assert (R0: R (repeat None N) (([] : heap), repeat None N)).
  { split; cbn [fst snd].
    - rewrite !repeat_length. auto.
    - intros i v o Hv Ho. apply nth_repeat_some in Hv. apply nth_repeat_some in Ho. subst. exact I.
    - intros i j v w b Hv _ E. apply nth_repeat_some in Hv. subst. discriminate.
    - intros [|b] l Hb; discriminate. }
  assert (Q: forall p s0 m0, R s0 m0 -> spec_run (map fst p) s0 = Some s -> exists m, model_run p m0 = Ok m /\ R s m).
  { clear p H R0. induction p as [|[o junk] p IH]; intros s0 m0 R1 H; cbn [map spec_run model_run fst] in *.
    - injection H as <-. eauto.
    - destruct (spec_step o s0) as [s1|] eqn:E; [|discriminate]. destruct (step_ok o junk s0 s1 m0 R1 E) as (m1 & E1 & R2). rewrite E1. cbn [bind]. eauto. }
  specialize (Q p _ _ R0 H).
  destruct Q as ([h v] & E & HR). exists h, v. split; auto. split.
  - intros i l Hi. destruct (live_rel s (h, v) i l HR) as (a & A1 & _ & _ & A4); [unfold live; rewrite Hi; auto|]. cbn [fst snd] in *.
    exists a. split; auto. destruct A4 as (B1 & B2 & B3 & B4). split; auto. intros k x Hk. unfold get, hread, hget.
    assert (Lk: (k < length l)%nat) by (apply nth_error_Some; congruence).
    destruct (p_ a) as [b|]; [|unfold zlen in B1; lia]. destruct B4 as (m & Hm & Lm & Fm). rewrite Hm. cbn [bind]. unfold rd.
    destruct (Z.ltb_spec (Z.of_nat k) 0); [lia|]. rewrite Nat2Z.id, (Fm k x); auto.
  - intros HF. apply Forall_forall. intros o Ho. apply In_nth_error in Ho as [b Hb]. destruct o as [l|]; auto. exfalso.
    destruct (R_leak _ _ HR b l Hb) as (i & w & Hi & Hw). cbn [snd] in Hi.
    assert (Li: (i < length s)%nat) by (rewrite <- (R_len _ _ HR); apply nth_error_Some; cbn [snd]; congruence).
    destruct (nth_error s i) as [os|] eqn:Es; [|apply nth_error_None in Es; lia].
    pose proof (R_obj _ _ HR i w os Hi Es) as O. rewrite Forall_forall in HF. rewrite (HF os (nth_error_In _ _ Es)) in O.
    destruct w; [contradiction|discriminate].
Qed.
End Spec.

(** a program with growth, shrinking without free, stale capacity, copy, move and swap *)
Definition demo : list (op (T := Z)) :=
  [New 0 3 true; Put 0 1 5; Resize 0 1 true; Resize 0 4 true; NewCopy 1 0; Put 1 3 8; Resize 1 9 false; Put 1 8 2; Swap 0 1; Assign 1 0; Clear 0; Resize 0 2 true;
   NewMove 2 1; MoveAssign 0 2; Destroy 1; Assign 0 0].
Example C41_nonvacuous : exists s l, spec_run 0 4 demo (repeat None 3) = Some s /\ nth_error s 0 = Some (Some l) /\ nth_error l 3 = Some (Some 8) /\ zlen l = 9 /\
  spec_run 0 4 (demo ++ [Destroy 0; Destroy 2]) (repeat None 3) = Some [None; None; None].
Proof. do 2 eexists. split; [vm_compute; reflexivity|]. split; [reflexivity|]. split; [reflexivity|]. split; reflexivity. Qed.

(** findings: an element count whose byte size wraps gives a short block, and clearing it is undefined; assigning an
    array to itself by move empties it *)
Theorem C41_overflow_finding : forall junk, resize 0 4 junk [] (Arr None 0 0) (2 ^ 62 + 1) true = UB.
Proof.
  intros junk. unfold resize. cbn [size_ allocSize_ p_]. replace (2 ^ 62 + 1 <=? 0) with false by reflexivity. replace (0 <? 2 ^ 62 + 1) with true by reflexivity.
  unfold allocCopy, alloc. replace (((2 ^ 62 + 1) * 4) mod 2 ^ 64 / 4) with 1 by reflexivity. cbn [Z.to_nat Pos.to_nat Pos.iter_op copy bind AlignedFree p_ size_ seq map app length].
  replace (Z.to_nat (2 ^ 62 + 1 - 0)) with (S (S (Z.to_nat (2 ^ 62 - 1)))) by lia. generalize (Z.to_nat (2 ^ 62 - 1)). intros n. reflexivity.
Qed.
Theorem C41_self_move_finding : exists h v a, model_run 0 4 [(New 0 3 true, fun _ => 0); (Put 0 1 5, fun _ => 0); (MoveAssign 0 0, fun _ => 0)] ([], [None]) = Ok (h, v) /\
  nth_error v 0 = Some (Some a) /\ size_ a = 0.
Proof. do 3 eexists. split; [vm_compute; reflexivity|]. split; reflexivity. Qed.

Print Assumptions C41_array.
Print Assumptions C41_overflow_finding.
Print Assumptions C41_self_move_finding.
