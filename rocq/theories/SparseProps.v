(** Properties C49, C50 (nlp/sparse.hpp). *)
From Coq Require Import Ascii.
From Coq Require Import Sorted.
Require Import Verif.Common Verif.StreamModel Verif.EndianProps Verif.SerializerModel Verif.SerializerProps Verif.SparseModel.

(** ** Specification.  A sparse vector is a list of (position, value) with strictly increasing positions. *)
Definition last_pos {A} (l : list (Z * A)) : Z := last (map fst l) 0.
(** which position may be appended: greater than the last one; CompressedPositionTbl needs a gap below 2^30
    (from 0 for the first position), PositionTbl a position below 2^32 *)
Definition accepts {A} (packed : bool) (l : list (Z * A)) (pos : Z) : bool :=
  ((zlen l =? 0) || (last_pos l <? pos)) && (if packed then pos - last_pos l <? 2 ^ 30 else pos <? 2 ^ 32).
(** a history of one SparseVector and what each call shows *)
Inductive op (A : Type) := Push (pos : Z) (x : A) | Iterate | Clear.
Arguments Push {A}. Arguments Iterate {A}. Arguments Clear {A}.
Inductive seen (A : Type) := Thrown (b : bool) | Pairs (l : list (Z * A)) | Done.
Arguments Thrown {A}. Arguments Pairs {A}. Arguments Done {A}.
Fixpoint spec_run {A} (packed : bool) (l : list (Z * A)) (ops : list (op A)) : list (seen A) :=
  match ops with
  | [] => []
  | Push p x :: r => if accepts packed l p then Thrown false :: spec_run packed (l ++ [(p, x)]) r else Thrown true :: spec_run packed l r
  | Iterate :: r => Pairs l :: spec_run packed l r
  | Clear :: r => Done :: spec_run packed [] r
  end.
(** the same history on the modelled class *)
Fixpoint sv_run {A} (v : sv A) (ops : list (op A)) : res (list (seen A)) :=
  match ops with
  | [] => Ok []
  | Push p x :: r => let (v, thrown) := push_back v p x in let! o := sv_run v r in Ok (Thrown thrown :: o)
  | Iterate :: r => let! (l, v) := iterate v in let! o := sv_run v r in Ok (Pairs l :: o)
  | Clear :: r => let! o := sv_run (sv_clear v) r in Ok (Done :: o)
  end.
(** a sequence all of whose positions are accepted one after the other *)
Fixpoint valid_from {A} (packed : bool) (l r : list (Z * A)) : Prop :=
  match r with
  | [] => True
  | (p, x) :: r => 0 <= p < 2 ^ 64 /\ accepts packed l p = true /\ valid_from packed (l ++ [(p, x)]) r
  end.
Definition valid {A} (packed : bool) (l : list (Z * A)) : Prop := valid_from packed [] l.
(** fewer than 2^30 - 1 entries: CompressedPositionTbl's cursor is an unsigned int byte offset *)
Definition room {A} (l : list (Z * A)) : Prop := zlen l < 2 ^ 30 - 1.

(** ** The packed encoding *)
Definition enc1 (d : Z) : list Z :=
  if d <? 2 ^ 6 then [d]
  else if d <? 2 ^ 14 then [d mod 64 + 64; d / 64]
  else if d <? 2 ^ 22 then [d mod 64 + 128; (d / 64) mod 256; d / 16384]
  else [d mod 64 + 192; (d / 64) mod 256; (d / 16384) mod 256; d / 4194304].
Fixpoint enc (prev : Z) (ps : list Z) : list Z :=
  match ps with [] => [] | p :: r => enc1 (p - prev) ++ enc p r end.

Lemma enc_snoc ps : forall prev p, enc prev (ps ++ [p]) = enc prev ps ++ enc1 (p - last ps prev).
Proof.
  induction ps as [|q ps IH]; intros prev p; cbn [app enc]; [rewrite app_nil_r; reflexivity|].
  rewrite IH, <- app_assoc. do 3 f_equal. destruct ps; auto. cbn [last]. 
  assert (forall (l : list Z) a b, l <> [] -> last l a = last l b) as L.
  { clear. induction l as [|x l IH]; intros; [congruence|]. destruct l; auto. cbn [last] in *. apply IH. discriminate. }
  f_equal. exact (L (z :: ps) q prev ltac:(discriminate)).
Qed.
Lemma last_app_one {A} (l : list A) x d : last (l ++ [x]) d = x.
Proof. apply last_last. Qed.
Lemma enc_app ps : forall prev qs, enc prev (ps ++ qs) = enc prev ps ++ enc (last ps prev) qs.
Proof.
  intros prev qs. revert ps prev. induction qs as [|q qs IH]; intros ps prev.
  - rewrite !app_nil_r. reflexivity.
  - replace (ps ++ q :: qs) with ((ps ++ [q]) ++ qs) by (rewrite <- app_assoc; auto).
    rewrite IH, enc_snoc, last_app_one, <- app_assoc. reflexivity.
Qed.
Lemma enc1_len d : 1 <= zlen (enc1 d) <= 4.
Proof. unfold enc1. repeat match goal with |- context [if ?b then _ else _] => destruct b end; cbn; lia. Qed.
Lemma enc_len ps : forall prev, 0 <= zlen (enc prev ps) <= 4 * zlen ps.
Proof.
  induction ps as [|p ps IH]; intros prev; cbn [enc]; [cbn; lia|].
  rewrite zlen_app, zlen_cons. pose proof (enc1_len (p - prev)). pose proof (IH p). lia.
Qed.
Lemma rd_at' {A} (l : list A) i x : nth_error l (Z.to_nat i) = Some x -> 0 <= i -> rd l i = Ok x.
Proof. intros H Hi. unfold rd. destruct (Z.ltb_spec i 0); [lia|]. now rewrite H. Qed.
Lemma rd_mid {A} (pre : list A) b post k x : nth_error b (Z.to_nat k) = Some x -> 0 <= k -> rd (pre ++ b ++ post) (zlen pre + k) = Ok x.
Proof.
  intros H Hk. apply rd_at'; [|unfold zlen; lia]. unfold zlen. rewrite Z2Nat.inj_add, Nat2Z.id by lia.
  rewrite nth_error_app2 by lia. replace (length pre + Z.to_nat k - length pre)%nat with (Z.to_nat k) by lia.
  rewrite nth_error_app1; auto. apply nth_error_Some. congruence.
Qed.
Lemma lor_hi2 x h : 0 <= x < 64 -> 0 <= h -> Z.shiftr (x + h * 64) 6 = h /\ Z.land (x + h * 64) 63 = x.
Proof.
  intros Hx Hh. rewrite Z.shiftr_div_pow2 by lia. change 63 with (Z.ones 6). rewrite Z.land_ones by lia. change (2 ^ 6) with 64.
  split; [rewrite Z.div_add by lia; rewrite Z.div_small; lia|rewrite Z.mod_add by lia; apply Z.mod_small; lia].
Qed.
Ltac Zify.zify_post_hook ::= idtac.
Lemma dm d m : 0 < m -> d = m * (d / m) + d mod m /\ 0 <= d mod m < m.
Proof. intros. split; [apply Z.div_mod; lia|apply Z.mod_pos_bound; lia]. Qed.
Lemma setup_enc d pre post k val : 0 <= d < 2 ^ 30 -> zlen pre + 4 < 2 ^ 32 ->
  setup (pre ++ enc1 d ++ post) (mk_curr k val (zlen pre)) = Ok (mk_curr k ((val + d) mod 2 ^ 64) (zlen pre + zlen (enc1 d))).
Proof.
  intros Hd Hp. pose proof (zlen_nonneg pre). unfold setup. cbn [cpos vecPos cval].
  destruct (dm d 64 ltac:(lia)) as [D1 M1]. destruct (dm (d / 64) 256 ltac:(lia)) as [D2 M2].
  destruct (dm d 16384 ltac:(lia)) as [D3 M3]. destruct (dm (d / 16384) 256 ltac:(lia)) as [D4 M4].
  destruct (dm d 4194304 ltac:(lia)) as [D5 M5].
  assert (E3 : d / 16384 = d / 64 / 256) by (rewrite Z.div_div by lia; reflexivity).
  assert (E5 : d / 4194304 = d / 16384 / 256) by (rewrite Z.div_div by lia; reflexivity).
  assert (R : forall j x, nth_error (enc1 d) (Z.to_nat j) = Some x -> 0 <= j < 4 -> rd (pre ++ enc1 d ++ post) ((zlen pre + j) mod 2 ^ 32) = Ok x).
  { intros j x Hj Hr. rewrite Z.mod_small by lia. apply rd_mid; [auto|lia]. }
  assert (R0 : forall x, nth_error (enc1 d) 0 = Some x -> rd (pre ++ enc1 d ++ post) (zlen pre) = Ok x).
  { intros x Hx. pose proof (R 0 x Hx ltac:(lia)) as Q. rewrite Z.mod_small, Z.add_0_r in Q by lia. auto. }
  revert R R0. generalize (pre ++ enc1 d ++ post) as v. intros v R R0. unfold enc1 in *.
  destruct (Z.ltb_spec d (2 ^ 6)) as [L6|L6]; [|destruct (Z.ltb_spec d (2 ^ 14)) as [L14|L14]; [|destruct (Z.ltb_spec d (2 ^ 22)) as [L22|L22]]].
  - rewrite (R0 d eq_refl). cbn [bind]. replace (Z.shiftr d 6) with 0 by (rewrite Z.shiftr_div_pow2, Z.div_small by lia; auto).
    cbn [Z.ltb Z.compare bind]. do 2 f_equal. cbn. rewrite Z.mod_small; lia.
  - rewrite (R0 _ eq_refl). cbn [bind]. change (d mod 64 + 64) with (d mod 64 + 1 * 64). destruct (lor_hi2 (d mod 64) 1 M1 ltac:(lia)) as [-> ->]. cbn [Z.ltb Z.compare Z.eqb Pos.eqb].
    rewrite (R 1 _ eq_refl) by lia. cbn [bind]. rewrite lor_add by lia. do 2 f_equal; [f_equal; lia|]. cbn [zlen length Z.of_nat Pos.of_succ_nat Pos.succ]. change (zlen [_;_]) with 2. rewrite Z.mod_small; lia.
  - rewrite (R0 _ eq_refl). cbn [bind]. change (d mod 64 + 128) with (d mod 64 + 2 * 64). destruct (lor_hi2 (d mod 64) 2 M1 ltac:(lia)) as [-> ->]. cbn [Z.ltb Z.compare Z.eqb Pos.eqb].
    rewrite (R 1 _ eq_refl) by lia. cbn [bind]. rewrite (R 2 _ eq_refl) by lia. cbn [bind].
    replace (Z.shiftl (d / 16384) 14) with (Z.shiftl (Z.shiftl (d / 16384) 8) 6) by (rewrite Z.shiftl_shiftl; [reflexivity|lia]).
    rewrite <- Z.shiftl_lor. rewrite (lor_add (d / 64 mod 256)) by lia. rewrite lor_add by lia.
    do 2 f_equal; [f_equal; lia|]. change (zlen [_;_;_]) with 3. rewrite Z.mod_small; lia.
  - rewrite (R0 _ eq_refl). cbn [bind]. change (d mod 64 + 192) with (d mod 64 + 3 * 64). destruct (lor_hi2 (d mod 64) 3 M1 ltac:(lia)) as [-> ->]. cbn [Z.ltb Z.compare Z.eqb Pos.eqb].
    rewrite (R 1 _ eq_refl) by lia. cbn [bind]. rewrite (R 2 _ eq_refl) by lia. cbn [bind]. rewrite (R 3 _ eq_refl) by lia. cbn [bind].
    replace (Z.shiftl (d / 16384 mod 256) 14) with (Z.shiftl (Z.shiftl (d / 16384 mod 256) 8) 6) by (rewrite Z.shiftl_shiftl; [reflexivity|lia]).
    replace (Z.shiftl (d / 4194304) 22) with (Z.shiftl (Z.shiftl (d / 4194304) 16) 6) by (rewrite Z.shiftl_shiftl; [reflexivity|lia]).
    rewrite <- Z.shiftl_lor. rewrite <- Z.shiftl_lor. 
    rewrite (lor_add (d / 64 mod 256)) by lia. rewrite (lor_add (_ + _) (d / 4194304) 16) by lia. rewrite lor_add by lia.
    do 2 f_equal; [f_equal; lia|]. change (zlen [_;_;_;_]) with 4. rewrite Z.mod_small; lia.
Qed.
Lemma removelast_app_one {A} (l : list A) x : removelast (l ++ [x]) = l.
Proof. apply removelast_last. Qed.
Lemma set_packed v lastPos (dummy : bool) pos : 0 <= lastPos -> 0 <= pos < 2 ^ 64 ->
  let t := Packed (v ++ if dummy then [0] else []) lastPos dummy in
  tbl_set t pos = if negb (zlen v =? 0) && (pos <=? lastPos) then (Packed v lastPos false, true)
                  else if (pos <? lastPos) then (if 2 ^ 30 <=? (pos - lastPos) mod 2 ^ 64 then (Packed v lastPos false, true) else tbl_set t pos)
                  else if 2 ^ 30 <=? pos - lastPos then (Packed v lastPos false, true)
                  else (Packed (v ++ enc1 (pos - lastPos)) pos false, false).
Proof.
  intros H0 Hp t.
  assert (T : forall X, (if dummy then removelast (v ++ (if dummy then [0] else [])) else v ++ (if dummy then [0] else [])) = X <-> v = X).
  { intros X. destruct dummy; [rewrite removelast_app_one|rewrite app_nil_r]; tauto. }
  destruct (Z.ltb_spec pos lastPos) as [L|L].
  - destruct (negb (zlen v =? 0) && (pos <=? lastPos)) eqn:E.
    + unfold t, tbl_set. rewrite (proj2 (T v) eq_refl), E. reflexivity.
    + destruct (2 ^ 30 <=? _) eqn:E2; auto. unfold t, tbl_set. rewrite (proj2 (T v) eq_refl), E, E2. reflexivity.
  - unfold t, tbl_set. rewrite (proj2 (T v) eq_refl). rewrite (Z.mod_small (pos - lastPos)) by lia.
    destruct (negb _ && _); auto. destruct (Z.leb_spec (2 ^ 30) (pos - lastPos)) as [G|G]; auto.
    rewrite (Z.mod_small (pos - lastPos)) by lia. set (d := pos - lastPos) in *. assert (Hd : 0 <= d < 2 ^ 30) by lia. clearbody d. f_equal.
    destruct (dm d 64 ltac:(lia)) as [D1 M1]. change 63 with (Z.ones 6). rewrite Z.land_ones by lia. change (2 ^ 6) with 64 at 2. change (d mod 2 ^ 6) with (d mod 64).
    rewrite (Z.mod_small (d mod 64)) by lia. rewrite !lor_add by lia. rewrite !Z.shiftr_div_pow2 by lia.
    change (2 ^ 6) with 64. change (2 ^ 14) with 16384. change (2 ^ 22) with 4194304. unfold enc1. change (2 ^ 6) with 64. change (2 ^ 14) with 16384. change (2 ^ 22) with 4194304.
    destruct (Z.ltb_spec d 64) as [L6|L6]; [|destruct (Z.ltb_spec d 16384) as [L14|L14]; [|destruct (Z.ltb_spec d 4194304) as [L22|L22]]].
    + rewrite Z.mod_small by lia. reflexivity.
    + rewrite (Z.mod_small (d / 64)) by (split; [apply Z.div_pos; lia|apply Z.div_lt_upper_bound; lia]). reflexivity.
    + rewrite (Z.mod_small (d / 16384)) by (split; [apply Z.div_pos; lia|apply Z.div_lt_upper_bound; lia]). reflexivity.
    + rewrite (Z.mod_small (d / 4194304)) by (split; [apply Z.div_pos; lia|apply Z.div_lt_upper_bound; lia]). reflexivity.
Qed.

(** ** The object represents a list of pairs *)
Definition is_packed (t : tbl) : bool := match t with Plain _ => false | Packed _ _ _ => true end.
Definition repr {A} (v : sv A) (l : list (Z * A)) : Prop :=
  vec v = map snd l /\ valid (is_packed (tab v)) l /\
  match tab v with
  | Plain t => t = map fst l
  | Packed t lastPos d => t = enc 0 (map fst l) ++ (if d then [0] else []) /\ lastPos = last_pos l
  end.
Lemma valid_from_app {A} b (r s : list (Z * A)) : forall l, valid_from b l (r ++ s) <-> valid_from b l r /\ valid_from b (l ++ r) s.
Proof.
  induction r as [|[p x] r IH]; intros l; cbn [app valid_from].
  - rewrite app_nil_r. tauto.
  - rewrite IH, <- app_assoc. cbn [app]. tauto.
Qed.
Lemma valid_snoc {A} b (l : list (Z * A)) p x : valid b (l ++ [(p, x)]) <-> valid b l /\ 0 <= p < 2 ^ 64 /\ accepts b l p = true.
Proof. unfold valid. rewrite valid_from_app. cbn [valid_from app]. tauto. Qed.
Lemma last_pos_snoc {A} (l : list (Z * A)) p x : last_pos (l ++ [(p, x)]) = p.
Proof. unfold last_pos. rewrite map_app. apply last_app_one. Qed.
Lemma last_pos_nonneg {A} b (l : list (Z * A)) : valid b l -> 0 <= last_pos l < 2 ^ 64.
Proof.
  destruct (rev l) as [|[p x] r] eqn:E.
  - apply (f_equal (@rev _)) in E. rewrite rev_involutive in E. cbn in E. subst. cbn. lia.
  - apply (f_equal (@rev _)) in E. rewrite rev_involutive in E. cbn in E. subst. rewrite valid_snoc, last_pos_snoc. lia.
Qed.
Lemma zlen_map {A B} (f : A -> B) l : zlen (map f l) = zlen l.
Proof. unfold zlen. now rewrite map_length. Qed.
Lemma zlen_zero {A} (l : list A) : (zlen l =? 0) = true <-> l = [].
Proof. rewrite Z.eqb_eq. split; [destruct l; [auto|rewrite zlen_cons; pose proof (zlen_nonneg l); lia]|intros ->; reflexivity]. Qed.
Lemma enc_zero prev ps : (zlen (enc prev ps) =? 0) = (zlen ps =? 0).
Proof.
  destruct ps as [|p ps]; cbn [enc]; auto. rewrite zlen_app, zlen_cons. pose proof (enc1_len (p - prev)). pose proof (zlen_nonneg ps). pose proof (enc_len ps p).
  rewrite (proj2 (Z.eqb_neq _ 0)), (proj2 (Z.eqb_neq _ 0)) by lia. reflexivity.
Qed.
Lemma repr_new {A} b : repr (@sv_new A b) [].
Proof. unfold sv_new. destruct b; repeat split; cbn; auto. Qed.
Lemma repr_clear {A} (v : sv A) l : repr v l -> repr (sv_clear v) [] /\ is_packed (tab (sv_clear v)) = is_packed (tab v).
Proof. intros _. destruct v as [[t|t lp d] u]; repeat split; cbn; auto. Qed.
Lemma repr_push {A} (v : sv A) l p x : repr v l -> 0 <= p < 2 ^ 64 ->
  exists v', push_back v p x = (v', negb (accepts (is_packed (tab v)) l p)) /\ is_packed (tab v') = is_packed (tab v) /\
    repr v' (if accepts (is_packed (tab v)) l p then l ++ [(p, x)] else l).
Proof.
  intros (Hv & V & Ht) Hp. pose proof (last_pos_nonneg _ _ V) as HL. destruct v as [[t|t lp d] u]; cbn [tab vec is_packed] in *.
  - subst t u. unfold push_back. cbn [tab vec tbl_set]. unfold accepts. rewrite zlen_map. fold (last_pos l).
    destruct (Z.eqb_spec (zlen l) 0) as [Z0|Z0]; cbn [negb andb orb].
    + destruct (Z.ltb_spec 4294967295 p), (Z.ltb_spec p (2 ^ 32)); try lia; cbn [andb negb]; eexists; (split; [reflexivity|]); split; auto.
      * repeat split; auto.
      * split; [cbn; rewrite map_app; auto|]. split; [apply valid_snoc; split; auto; split; auto; unfold accepts; cbn [is_packed tab]; rewrite (proj2 (Z.eqb_eq _ _) Z0), (proj2 (Z.ltb_lt p (2 ^ 32))) by lia; auto|].
        cbn. rewrite map_app. cbn. rewrite Z.mod_small by lia. auto.
    + destruct (Z.leb_spec p (last_pos l)), (Z.ltb_spec (last_pos l) p); try lia; cbn [andb negb]; [eexists; (split; [reflexivity|]); split; auto; repeat split; auto|].
      destruct (Z.ltb_spec 4294967295 p), (Z.ltb_spec p (2 ^ 32)); try lia; cbn [andb negb]; eexists; (split; [reflexivity|]); split; auto.
      * repeat split; auto.
      * split; [cbn; rewrite map_app; auto|]. split; [apply valid_snoc; split; auto; split; auto; unfold accepts; cbn [is_packed tab]; rewrite (proj2 (Z.ltb_lt p (2 ^ 32))), (proj2 (Z.ltb_lt (last_pos l) p)), orb_true_r by lia; auto|].
        cbn. rewrite map_app. cbn. rewrite Z.mod_small by lia. auto.
  - destruct Ht as (-> & ->). subst u. unfold push_back. cbn [tab vec]. rewrite set_packed by lia. rewrite enc_zero, zlen_map. unfold accepts.
    assert (N : repr (mk_sv (Packed (enc 0 (map fst l)) (last_pos l) false) (map snd l)) l).
    { split; auto. split; auto. cbn. rewrite app_nil_r. auto. }
    assert (G : accepts true l p = true -> repr (mk_sv (Packed (enc 0 (map fst l) ++ enc1 (p - last_pos l)) p false) (map snd l ++ [x])) (l ++ [(p, x)])).
    { intros Ac. split; [cbn; rewrite map_app; auto|]. split; [cbn [tab is_packed]; apply valid_snoc; auto|]. cbn [tab]. rewrite map_app, last_pos_snoc. cbn [map fst].
      rewrite enc_snoc, app_nil_r. split; auto. }
    unfold accepts in G.
    destruct (Z.eqb_spec (zlen l) 0) as [Z0|Z0]; cbn [negb andb orb] in *.
    + assert (LZ : last_pos l = 0) by (apply Z.eqb_eq, zlen_zero in Z0; subst; auto). destruct (Z.ltb_spec p (last_pos l)); [lia|].
      destruct (Z.leb_spec (2 ^ 30) (p - last_pos l)), (Z.ltb_spec (p - last_pos l) (2 ^ 30)); try lia; cbn [negb andb];
      eexists; (split; [reflexivity|]); auto.
    + destruct (Z.leb_spec p (last_pos l)), (Z.ltb_spec (last_pos l) p); try lia; cbn [andb negb] in *; [eexists; (split; [reflexivity|]); auto|].
      destruct (Z.ltb_spec p (last_pos l)); [lia|].
      destruct (Z.leb_spec (2 ^ 30) (p - last_pos l)), (Z.ltb_spec (p - last_pos l) (2 ^ 30)); try lia; cbn [negb andb];
      eexists; (split; [reflexivity|]); auto.
Qed.

(** ** Cursors *)
(** the cursor [c] stands before the rest [r] of the pairs *)
Definition cur_at {A} (v : sv A) (l r : list (Z * A)) (c : curr) : Prop :=
  repr v (l ++ r) /\ vecPos c = zlen l /\
  match tab v with
  | Plain _ => True
  | Packed _ _ d => d = true /\ match r with [] => True | (p, _) :: _ => cval c = p /\ cpos c = zlen (enc 0 (map fst l ++ [p])) end
  end.
Lemma gap {A} (l r : list (Z * A)) p x : valid true (l ++ (p, x) :: r) -> 0 <= p - last_pos l < 2 ^ 30 /\ p < 2 ^ 64.
Proof.
  unfold valid. rewrite valid_from_app. intros (V & Hp & Ac & _). pose proof (last_pos_nonneg true l V). cbn [app] in *. revert Ac. unfold accepts.
  destruct (Z.eqb_spec (zlen l) 0) as [Z0|Z0]; cbn [orb andb]; intros Ac.
  - assert (LZ : last_pos l = 0) by (apply Z.eqb_eq, zlen_zero in Z0; subst; auto). lia.
  - lia.
Qed.
Lemma begin_ok {A} (v : sv A) l : repr v l -> room l -> exists c v', it_begin v = Ok (c, v') /\ cur_at v' [] l c /\ is_packed (tab v') = is_packed (tab v).
Proof.
  intros (Hv & V & Ht) Hr. destruct v as [[t|t lp d] u]; cbn [tab vec is_packed] in *; unfold it_begin, tbl_begin; cbn [tab vec].
  - do 2 eexists. split; [reflexivity|]. split; auto. split; [split; auto|]. split; [reflexivity|exact I].
  - destruct Ht as (-> & ->).
    assert (E : (if d then enc 0 (map fst l) ++ (if d then [0] else []) else (enc 0 (map fst l) ++ (if d then [0] else [])) ++ [0]) = enc 0 (map fst l) ++ [0]).
    { destruct d; auto. now rewrite app_nil_r. }
    rewrite E. clear E. subst u. destruct l as [|[p x] l].
    + cbn. do 2 eexists. split; [reflexivity|]. split; auto. split; [split; auto; split; auto; cbn; auto|]. split; auto. cbn. auto.
    + cbn [map fst snd enc]. rewrite <- app_assoc. destruct (gap [] l p x V) as [G1 G2]. change (last_pos []) with 0 in G1.
      pose proof (setup_enc (p - 0) [] (enc p (map fst l) ++ [0]) 0 0 G1 ltac:(cbn; lia)) as S. cbn [app] in S. change (zlen []) with 0 in S. rewrite S. cbn [bind].
      do 2 eexists. split; [reflexivity|]. split; auto. split; [split; auto; split; auto; cbn; rewrite <- app_assoc; auto|]. split; auto. cbn [tab]. split; auto. cbn [cval cpos map app enc].
      split; [rewrite Z.mod_small; lia|rewrite app_nil_r; lia].
Qed.
Lemma end_ok {A} (v : sv A) l r c : cur_at v l r c -> (vecPos c =? it_end v) = match r with [] => true | _ => false end.
Proof.
  intros ((Hv & _) & Hc & _). unfold it_end. rewrite Hv, Hc, zlen_map, zlen_app. destruct r.
  - apply Z.eqb_eq. cbn. lia.
  - apply Z.eqb_neq. rewrite zlen_cons. pose proof (zlen_nonneg r). lia.
Qed.
Lemma pos_ok {A} (v : sv A) l p x r c : cur_at v l ((p, x) :: r) c -> it_pos v c = Ok p.
Proof.
  intros ((Hv & V & Ht) & Hc & Hd). unfold it_pos, tbl_get. destruct (tab v) as [t|t lp d].
  - subst t. rewrite Hc, map_app. cbn [map fst]. rewrite <- (zlen_map fst l). apply rd_app_exact.
  - destruct Hd as (_ & -> & _). auto.
Qed.
Lemma val_ok {A} (v : sv A) l p x r c : cur_at v l ((p, x) :: r) c -> it_val v c = Ok x.
Proof.
  intros ((Hv & V & Ht) & Hc & Hd). unfold it_val. rewrite Hv, Hc, map_app. cbn [map snd]. rewrite <- (zlen_map snd l). apply rd_app_exact.
Qed.
Lemma next_ok {A} (v : sv A) l p x r c : cur_at v l ((p, x) :: r) c -> room (l ++ (p, x) :: r) ->
  exists c', it_next v c = Ok c' /\ cur_at v (l ++ [(p, x)]) r c'.
Proof.
  intros (R & Hc & Hd) Hr. assert (R' : repr v ((l ++ [(p, x)]) ++ r)) by (rewrite <- app_assoc; auto).
  destruct R as (Hv & V & Ht). unfold it_next, tbl_next. unfold cur_at. destruct (tab v) as [t|t lp d] eqn:ET.
  - eexists. split; [reflexivity|]. split; auto. cbn [vecPos]. rewrite zlen_app, Hc. split; auto.
  - destruct Ht as (-> & ->). destruct Hd as (-> & Hc1 & Hc2). destruct c as [k val pos]. cbn [vecPos cval cpos] in *. subst.
    set (pre := enc 0 (map fst l ++ [p])). pose proof (last_pos_nonneg _ _ V) as HL.
    assert (P : zlen pre + 4 < 2 ^ 32).
    { pose proof (enc_len (map fst l ++ [p]) 0) as Q. fold pre in Q. rewrite zlen_app, zlen_map in Q. unfold room in Hr. rewrite zlen_app, zlen_cons in Hr. change (zlen [p]) with 1 in Q. pose proof (zlen_nonneg r). lia. }
    rewrite map_app. cbn [map fst]. replace (map fst l ++ p :: map fst r) with ((map fst l ++ [p]) ++ map fst r) by (rewrite <- app_assoc; auto).
    rewrite enc_app. fold pre. rewrite last_app_one, <- app_assoc. destruct r as [|[q y] r].
    + cbn [map enc app]. pose proof (setup_enc 0 pre [] (zlen l) p ltac:(lia) P) as S. change (enc1 0 ++ []) with [0] in S. rewrite S. cbn [bind].
      eexists. split; [reflexivity|]. split; auto. cbn [vecPos]. rewrite zlen_app. split; auto.
    + cbn [map fst enc]. rewrite <- app_assoc. cbn [is_packed] in V. replace (l ++ (p, x) :: (q, y) :: r) with ((l ++ [(p, x)]) ++ (q, y) :: r) in V by (rewrite <- app_assoc; auto).
      destruct (gap _ r q y V) as [G1 G2]. rewrite last_pos_snoc in G1.
      assert (0 <= p) by (unfold valid in V; rewrite !valid_from_app in V; cbn [valid_from] in V; lia).
      rewrite (setup_enc (q - p) pre (enc q (map fst r) ++ [0]) (zlen l) p G1 P). cbn [bind].
      eexists. split; [reflexivity|]. split; auto. cbn [vecPos cval cpos]. rewrite zlen_app. split; auto. split; auto. split; [rewrite Z.mod_small; lia|].
      rewrite map_app. cbn [map fst]. rewrite enc_snoc, zlen_app, last_app_one. reflexivity.
Qed.

(** ** C49 *)
Lemma iter_ok {A} (v : sv A) r : forall l c fuel, cur_at v l r c -> room (l ++ r) -> (length r <= fuel)%nat -> iter_from fuel v (it_end v) c = Ok r.
Proof.
  induction r as [|[p x] r IH]; intros l c fuel C R F; destruct fuel as [|fuel]; cbn [iter_from length] in *; try lia; rewrite (end_ok _ _ _ _ C); auto.
  rewrite (pos_ok _ _ _ _ _ _ C), (val_ok _ _ _ _ _ _ C). cbn [bind]. destruct (next_ok _ _ _ _ _ _ C R) as (c' & -> & C'). cbn [bind].
  rewrite (IH _ _ fuel C'); [reflexivity|rewrite <- app_assoc; auto|lia].
Qed.
Lemma iterate_ok {A} (v : sv A) l : repr v l -> room l -> exists v', iterate v = Ok (l, v') /\ repr v' l /\ is_packed (tab v') = is_packed (tab v).
Proof.
  intros R H. destruct (begin_ok v l R H) as (c & v' & E & C & P). unfold iterate. rewrite E. cbn [bind].
  rewrite (iter_ok v' l [] c); auto; [|destruct C as ((Hv & _) & _); rewrite Hv, map_length; cbn; lia].
  cbn [bind]. eexists. split; [reflexivity|]. split; auto. apply C.
Qed.
(** the number of pairs in the vector stays small during the history *)
Fixpoint pushes {A} (ops : list (op A)) : Z := match ops with [] => 0 | Push _ _ :: r => 1 + pushes r | _ :: r => pushes r end.
Definition positions_ok {A} (ops : list (op A)) : Prop := forall p x, In (Push p x) ops -> 0 <= p < 2 ^ 64.
Lemma run_ok {A} (ops : list (op A)) : forall (v : sv A) l, repr v l -> positions_ok ops -> zlen l + pushes ops < 2 ^ 30 - 1 ->
  sv_run v ops = Ok (spec_run (is_packed (tab v)) l ops).
Proof.
  induction ops as [|[p x| |] ops IH]; intros v l R P S; cbn [sv_run spec_run pushes] in *; auto.
  - destruct (repr_push v l p x R) as (v' & E & K & R'); [apply (P p x); left; auto|]. rewrite E.
    assert (P' : positions_ok ops) by (intros p' x' I; apply (P p' x'); right; auto).
    destruct (accepts (is_packed (tab v)) l p).
    + rewrite (IH v' _ R' P'), K; [reflexivity|]. rewrite zlen_app. change (zlen [(p, x)]) with 1. lia.
    + rewrite (IH v' _ R' P'), K; [reflexivity|]. lia.
  - assert (Q : 0 <= pushes ops) by (clear; induction ops as [|[] ? ?]; cbn [pushes]; lia).
    destruct (iterate_ok v l R) as (v' & E & R' & K); [unfold room; lia|]. rewrite E. cbn [bind]. rewrite (IH v' l R'), K; auto. intros p' x' I; apply (P p' x'); right; auto.
  - destruct (repr_clear v l R) as [R' K]. rewrite (IH _ [] R'), K; auto; [intros p' x' I; apply (P p' x'); right; auto|]. pose proof (zlen_nonneg l). cbn; lia.
Qed.
(** every history of push_back, iteration and clear behaves as the list of accepted pairs: rejected positions throw and
    change nothing, iteration shows exactly the pushed pairs in order *)
Theorem C49_history {A} packed (ops : list (op A)) : positions_ok ops -> pushes ops < 2 ^ 30 - 1 ->
  sv_run (sv_new packed) ops = Ok (spec_run packed [] ops).
Proof. intros P S. rewrite (run_ok ops _ [] (repr_new packed)); auto. destruct packed; auto. Qed.
Lemma spec_push_all {A} packed (r : list (Z * A)) : forall l, valid_from packed l r ->
  spec_run packed l (map (fun e => Push (fst e) (snd e)) r ++ [Iterate]) = map (fun _ => Thrown false) r ++ [Pairs (l ++ r)].
Proof.
  induction r as [|[p x] r IH]; intros l; cbn [valid_from map app spec_run fst snd].
  - intros _. now rewrite app_nil_r.
  - intros (Hp & -> & V). rewrite IH by auto. now rewrite <- app_assoc.
Qed.
(** strictly increasing positions with allowed gaps: no call throws, and iteration yields exactly the pairs *)
Theorem C49_pairs {A} packed (l : list (Z * A)) : valid packed l -> room l ->
  sv_run (sv_new packed) (map (fun e => Push (fst e) (snd e)) l ++ [Iterate]) = Ok (map (fun _ => Thrown false) l ++ [Pairs l]).
Proof.
  intros V R. rewrite C49_history.
  - rewrite spec_push_all; auto.
  - intros p x I. apply in_app_or in I. destruct I as [I|[I|[]]]; [|discriminate]. apply in_map_iff in I. destruct I as ([q y] & E & I). injection E as -> ->.
    clear R. unfold valid in V. revert V. generalize (@nil (Z * A)). induction l as [|[q y] l IH]; intros l0 V; [destruct I|]. cbn [valid_from] in V. destruct I as [I|I].
    + injection I as -> ->. apply V.
    + apply (IH I (l0 ++ [(q, y)])). apply V.
  - unfold room in R. assert (E : forall m, pushes (map (fun e : Z * A => Push (fst e) (snd e)) m ++ [Iterate]) = zlen m); [|rewrite E; auto].
    clear. induction m as [|[p x] m IH]; [reflexivity|]. cbn [map app pushes]. rewrite IH, zlen_cons. reflexivity.
Qed.

(** the objects a program can obtain from the default constructor, with the pairs they hold *)
Inductive reach {A} (packed : bool) : sv A -> list (Z * A) -> Prop :=
| reach_new : reach packed (sv_new packed) []
| reach_push v l p x v' thrown : reach packed v l -> 0 <= p < 2 ^ 64 -> push_back v p x = (v', thrown) ->
    reach packed v' (if accepts packed l p then l ++ [(p, x)] else l)
| reach_begin v l c v' : reach packed v l -> it_begin v = Ok (c, v') -> reach packed v' l
| reach_clear v l : reach packed v l -> reach packed (sv_clear v) [].
Lemma reach_repr {A} packed (v : sv A) l : reach packed v l -> repr v l /\ is_packed (tab v) = packed.
Proof.
  induction 1 as [|v l p x v' th R [IH K] Hp E|v l c v' R [IH K] E|v l R [IH K]].
  - split; [apply repr_new|destruct packed; auto].
  - destruct (repr_push v l p x IH Hp) as (w & E' & K' & R'). rewrite E in E'. injection E' as -> _. rewrite K in *. auto.
  - destruct IH as (Hv & V & Ht). destruct v as [[t|t lp d] u]; unfold it_begin, tbl_begin in E; cbn [tab vec is_packed] in *.
    + injection E as <- <-. split; auto. split; auto.
    + destruct (setup _ _) as [c'| | |]; try discriminate. injection E as <- <-. split; auto. split; auto. split; auto. cbn [tab vec]. destruct Ht as [-> ->]. split; auto.
      destruct d; auto. now rewrite app_nil_r.
  - destruct (repr_clear v l IH). split; congruence.
Qed.

(** operator== *)
Lemma eq_ok {A} (eqv : A -> A -> bool) (v w : sv A) r : forall s l m c d fuel, cur_at v l r c -> cur_at w m s d -> room (l ++ r) -> room (m ++ s) -> length r = length s ->
  (length r <= fuel)%nat ->
  eq_from fuel eqv v w (it_end v) c d = Ok (forallb (fun q => (fst (fst q) =? fst (snd q)) && eqv (snd (fst q)) (snd (snd q))) (combine r s)).
Proof.
  induction r as [|[p x] r IH]; intros [|[q y] s] l m c d fuel C D R S E F; destruct fuel as [|fuel]; cbn [eq_from length] in *; try lia; try discriminate; rewrite (end_ok _ _ _ _ C); auto.
  rewrite (pos_ok _ _ _ _ _ _ C), (pos_ok _ _ _ _ _ _ D), (val_ok _ _ _ _ _ _ C), (val_ok _ _ _ _ _ _ D). cbn [bind combine forallb fst snd].
  destruct (p =? q); cbn [negb andb]; auto. destruct (eqv x y); cbn [negb andb]; auto.
  destruct (next_ok _ _ _ _ _ _ C R) as (c' & -> & C'). destruct (next_ok _ _ _ _ _ _ D S) as (d' & -> & D'). cbn [bind].
  apply (IH s _ _ _ _ fuel C' D'); try (rewrite <- app_assoc; auto); lia.
Qed.
Theorem C49_equal {A} (eqv : A -> A -> bool) pv pw (v w : sv A) l m : reach pv v l -> reach pw w m -> room l -> room m ->
  exists b, sv_eq eqv v w = Ok b /\
   (b = true <-> length l = length m /\ forall p x q y, In ((p, x), (q, y)) (combine l m) -> p = q /\ eqv x y = true).
Proof.
  intros Rv Rw Hl Hm. apply reach_repr in Rv, Rw. destruct Rv as [Rv _], Rw as [Rw _]. unfold sv_eq, sv_size. rewrite (proj1 Rv), (proj1 Rw), !zlen_map.
  destruct (Z.eqb_spec (zlen l) (zlen m)) as [E|E]; cbn [negb].
  - destruct (begin_ok v l Rv Hl) as (c & v' & -> & C & _). cbn [bind]. destruct (begin_ok w m Rw Hm) as (d & w' & -> & D & _). cbn [bind].
    assert (E' : length l = length m) by (unfold zlen in E; lia).
    rewrite (eq_ok eqv v' w' l m [] [] c d); auto; [|destruct C as ((Hv & _) & _); rewrite Hv, map_length; cbn; lia]. eexists. split; [reflexivity|].
    rewrite forallb_forall. split.
    + intros H. split; auto. intros p x q y I. specialize (H _ I). cbn [fst snd] in H. apply andb_true_iff in H. rewrite Z.eqb_eq in H. auto.
    + intros [_ H] [[p x] [q y]] I. cbn [fst snd]. destruct (H p x q y I) as [-> ->]. now rewrite Z.eqb_refl.
  - eexists. split; [reflexivity|]. split; [discriminate|]. intros [E' _]. unfold zlen in E. lia.
Qed.

(** save and load *)
Lemma load_loop_ok {A} little (ct : codec A) (valid_val : A -> Prop) : round_trip ct valid_val -> forall r w l body rest sched,
  repr w l -> valid_from (is_packed (tab w)) l r -> Forall (fun e => valid_val (snd e)) r ->
  save_all (fun q => let! a := saveVariableInt little (mk_cint 8 false) (fst q) in let! b := c_save ct (snd q) in Ok (a ++ b)) r = Ok body ->
  exists w' sched', sv_load_loop little ct (length r) w (mk_is (body ++ rest) sched) = Ok (w', mk_is rest sched') /\ repr w' (l ++ r) /\ is_packed (tab w') = is_packed (tab w).
Proof.
  intros RT. induction r as [|[p x] r IH]; intros w l body rest sched R V F S; cbn [save_all length sv_load_loop] in *.
  - injection S as <-. rewrite app_nil_r. eauto.
  - destruct V as (Hp & Ac & V). inversion F; subst. cbn [fst snd] in *. destruct (RT x) as (ex & Ex & Lx); auto. 
    destruct (C09_variable_int little (mk_cint 8 false) p) as (ep & Ep & _ & Lp & _); [right; auto|unfold in_range; cbn [c_signed c_size]; change (8 * 8) with 64; auto|].
    rewrite Ep, Ex in S. cbn [bind] in S. destruct (save_all _ r) as [body'| | |] eqn:SB; try discriminate. cbn [bind] in S. injection S as <-.
    rewrite <- !app_assoc. destruct (Lp (ex ++ body' ++ rest) sched) as (s1 & ->). cbn [bind]. destruct (Lx (body' ++ rest) s1) as (s2 & ->). cbn [bind].
    destruct (repr_push w l p x R Hp) as (w' & -> & K & R'). rewrite Ac in *. cbn [negb].
    destruct (IH w' (l ++ [(p, x)]) body' rest s2 R') as (w2 & s3 & E & R2 & K2); auto; [rewrite K; auto|].
    exists w2, s3. split; [exact E|]. split; [rewrite <- app_assoc in R2; auto|congruence].
Qed.
Theorem C49_save_load {A} little (ct : codec A) (valid_val : A -> Prop) packed packed' (v w : sv A) l old : round_trip ct valid_val ->
  reach packed v l -> room l -> Forall (fun e => valid_val (snd e)) l -> reach packed' w old -> valid packed' l ->
  exists enc v', sv_save little ct v = Ok (enc, v') /\ iterate v' = Ok (l, v') /\
    forall rest sched, exists w' sched', sv_load little ct w (mk_is (enc ++ rest) sched) = Ok (w', mk_is rest sched') /\ exists w2, iterate w' = Ok (l, w2).
Proof.
  intros RT Rv Hl F Rw V. apply reach_repr in Rv, Rw. destruct Rv as [Rv _], Rw as [Rw Kw]. unfold sv_save.
  destruct (C09_variable_int little (mk_cint 8 false) (sv_size v)) as (eh & Eh & _ & Lh & _); [right; auto| |].
  { unfold in_range, sv_size. cbn [c_signed c_size]. rewrite (proj1 Rv), zlen_map. pose proof (zlen_nonneg l). unfold room in Hl. change (8 * 8) with 64. lia. }
  rewrite Eh. cbn [bind]. destruct (begin_ok v l Rv Hl) as (c & v' & Eb & C & _). destruct (iterate_ok v l Rv Hl) as (v2 & E2 & R2 & _).
  assert (v2 = v').
  { unfold iterate in E2. rewrite Eb in E2. cbn [bind] in E2. destruct (iter_from _ _ _ _); try discriminate. cbn [bind] in E2. congruence. }
  subst v2. rewrite E2. cbn [bind].
  assert (SB : exists body, save_all (fun q => let! a := saveVariableInt little (mk_cint 8 false) (fst q) in let! b := c_save ct (snd q) in Ok (a ++ b)) l = Ok body).
  { clear - RT F V. unfold valid in V. revert V. generalize (@nil (Z * A)). induction l as [|[p x] l IH]; intros l0 V; cbn [save_all fst snd]; eauto. inversion F; subst. destruct V as (Hp & _ & V). cbn [snd] in *.
    destruct (RT x) as (ex & -> & _); auto. destruct (C09_variable_int little (mk_cint 8 false) p) as (ep & -> & _); [right; auto|unfold in_range; cbn [c_signed c_size]; change (8 * 8) with 64; auto|].
    cbn [bind]. destruct (IH H2 _ V) as (b & ->). cbn [bind]. eauto. }
  destruct SB as (body & SB). rewrite SB. cbn [bind]. do 2 eexists. split; [reflexivity|]. split.
  - (* the dummy byte is there already *)
    destruct (iterate_ok v' l R2 Hl) as (v3 & E3 & _). rewrite E3. do 2 f_equal.
    unfold iterate in E3. destruct v' as [t u]. assert (B : tbl_begin t = Ok (fst (c, t), t)).
    { clear E3. unfold it_begin in Eb. destruct (tbl_begin (tab v)) as [[c' t']| | |] eqn:T; try discriminate. injection Eb as -> -> _.
      destruct (tab v) as [t0|t0 lp d]; cbn [tbl_begin] in T; [injection T as <- <-; reflexivity|]. cbn [fst].
      destruct (setup _ _) eqn:ES; try discriminate. injection T as <- <-. cbn [tbl_begin]. rewrite ES. reflexivity. }
    unfold it_begin in E3. cbn [tab vec] in E3. rewrite B in E3. cbn [bind fst] in E3. destruct (iter_from _ _ _ _); try discriminate. cbn [bind] in E3. congruence.
  - intros rest sched. unfold sv_load. rewrite <- app_assoc. destruct (Lh (body ++ rest) sched) as (s1 & ->). cbn [bind].
    unfold sv_size. rewrite (proj1 Rv), zlen_map, to_nat_zlen. destruct (repr_clear w old Rw) as [Rc Kc].
    destruct (load_loop_ok little ct valid_val RT l (sv_clear w) [] body rest s1 Rc) as (w' & s2 & E & Rw' & _); auto.
    { rewrite Kc, Kw. auto. }
    exists w', s2. split; [exact E|]. destruct (iterate_ok w' l Rw' Hl) as (w3 & E3 & _). eauto.
Qed.
(** three pairs with one-, two- and four-byte gaps, a rejected position, and a 2^30 gap *)
Example C49_case : sv_run (sv_new true) [Push 5 "a"%char; Push 100 "b"%char; Iterate; Push 100 "c"%char; Push 1000000000 "d"%char; Push (1000000000 + 2 ^ 30) "e"%char; Iterate]
  = Ok [Thrown false; Thrown false; Pairs [(5, "a"%char); (100, "b"%char)]; Thrown true; Thrown false; Thrown true; Pairs [(5, "a"%char); (100, "b"%char); (1000000000, "d"%char)]].
Proof. reflexivity. Qed.
Example C49_case2 : valid true [(0, 7); (63, 8); (127, 9); (20000, 10)] /\ room [(0, 7); (63, 8); (127, 9); (20000, 10)].
Proof. cbn. unfold room. cbn. repeat split; lia. Qed.

(** ** C50 *)
(** the value stored at position p *)
Definition value_at {A} (l : list (Z * A)) (p : Z) : option A := option_map snd (find (fun e => fst e =? p) l).
Definition increasing (ps : list Z) : Prop := StronglySorted Z.lt ps.

Lemma sorted_snoc l x : StronglySorted Z.lt l -> (forall y, In y l -> y < x) -> StronglySorted Z.lt (l ++ [x]).
Proof.
  induction 1 as [|a l S IH F]; intros H; cbn [app]; [constructor; constructor|].
  constructor; [apply IH; intros; apply H; right; auto|]. apply Forall_app. split; auto. constructor; auto. apply H. left; auto.
Qed.
Lemma sorted_last l : StronglySorted Z.lt l -> forall y, In y l -> y <= last l 0.
Proof.
  induction 1 as [|a l S IH F]; intros y I; [destruct I|]. destruct l as [|b l]; cbn in *; [destruct I as [<-|[]]; lia|].
  destruct I as [<-|I]; [|apply IH; auto]. inversion F; subst. pose proof (IH b (or_introl eq_refl)). lia.
Qed.
Lemma valid_sorted {A} b (l : list (Z * A)) : valid b l -> increasing (map fst l).
Proof.
  unfold increasing. induction l as [|[p x] l IH] using rev_ind; intros V; [constructor|]. apply valid_snoc in V. destruct V as (V & Hp & Ac). rewrite map_app. cbn [map fst].
  apply sorted_snoc; auto. intros y I. pose proof (sorted_last _ (IH V) y I). unfold accepts in Ac. apply andb_true_iff in Ac. destruct Ac as [Ac _].
  apply orb_true_iff in Ac. destruct Ac as [Ac|Ac]; [apply zlen_zero in Ac; subst; destruct I|]. apply Z.ltb_lt in Ac. unfold last_pos in Ac. lia.
Qed.
Lemma value_in {A} (l : list (Z * A)) p x : increasing (map fst l) -> (value_at l p = Some x <-> In (p, x) l).
Proof.
  unfold value_at, increasing. induction l as [|[q y] l IH]; cbn [map fst find]; intros S; [cbn; split; [discriminate|tauto]|].
  inversion S as [|? ? S' F]; subst. cbn [find fst]. destruct (Z.eqb_spec q p) as [->|N]; cbn [option_map snd].
  - split; [intros E; injection E as ->; left; auto|]. intros [E|I]; [congruence|]. exfalso. rewrite Forall_forall in F. specialize (F p (in_map fst _ _ I)). lia.
  - rewrite (IH S'). split; [right; auto|]. intros [E|I]; auto. congruence.
Qed.
Lemma value_none {A} (l : list (Z * A)) p : (forall x, ~ In (p, x) l) <-> value_at l p = None.
Proof.
  unfold value_at. split.
  - intros H. destruct (find _ l) as [[q y]|] eqn:E; auto. apply find_some in E. cbn [fst] in E. rewrite Z.eqb_eq in E. destruct E as [I ->]. destruct (H _ I).
  - intros H x I. destruct (find _ l) eqn:E; [discriminate|]. pose proof (find_none _ _ E _ I) as Q. cbn [fst] in Q. rewrite Z.eqb_refl in Q. discriminate.
Qed.
Lemma value_above {A} (l : list (Z * A)) q p : Forall (Z.lt q) (map fst l) -> p <= q -> value_at l p = None.
Proof. intros F H. apply value_none. intros x I. rewrite Forall_forall in F. specialize (F p (in_map fst _ _ I)). lia. Qed.

Lemma flat_map_ext' {A B} (f g : A -> list B) l : (forall e, In e l -> f e = g e) -> flat_map f l = flat_map g l.
Proof. induction l as [|a l IH]; intros H; cbn [flat_map]; auto. rewrite (H a), IH; auto; [|left; auto]. intros; apply H; right; auto. Qed.
Section Inter.
Context {A B : Type}.
Definition common (l : list (Z * A)) (m : list (Z * B)) : list (Z * A * B) :=
  flat_map (fun e => match value_at m (fst e) with Some y => [(fst e, snd e, y)] | None => [] end) l.
Lemma common_nil l : common l [] = [].
Proof. unfold common. induction l; auto. Qed.
Lemma common_skip1 p x r q y s : Forall (Z.lt q) (map fst s) -> p < q -> common ((p, x) :: r) ((q, y) :: s) = common r ((q, y) :: s).
Proof.
  intros F H. unfold common at 1. cbn [flat_map fst]. fold (common r ((q, y) :: s)). unfold value_at. cbn [find fst]. destruct (Z.eqb_spec q p); [lia|].
  change (option_map snd (find (fun e => fst e =? p) s)) with (value_at s p). rewrite (value_above s q p); auto. lia.
Qed.
Lemma common_skip2 p x r q y s : Forall (Z.lt p) (map fst r) -> q < p -> common ((p, x) :: r) ((q, y) :: s) = common ((p, x) :: r) s.
Proof.
  intros F H. unfold common. apply flat_map_ext'. intros e I. unfold value_at. cbn [find fst]. destruct (Z.eqb_spec q (fst e)) as [E|]; auto.
  exfalso. destruct I as [<-|I]; cbn [fst] in *; [lia|]. rewrite Forall_forall in F. specialize (F _ (in_map fst _ _ I)). lia.
Qed.
Lemma common_same p x r y s : common ((p, x) :: r) ((p, y) :: s) = (p, x, y) :: common r ((p, y) :: s).
Proof. unfold common at 1. cbn [flat_map fst snd]. unfold value_at. cbn [find fst]. rewrite Z.eqb_refl. reflexivity. Qed.

Variables (v : sv A) (w : sv B).
Lemma cur_sorted {X} (u : sv X) l r c : cur_at u l r c -> increasing (map fst r).
Proof.
  intros ((_ & V & _) & _). apply valid_sorted in V. rewrite map_app in V. unfold increasing in *. revert V. clear. induction (map fst l) as [|a k IH]; auto. cbn. intros H. inversion H; auto.
Qed.
Lemma w1_ok m s d : cur_at w m s d -> s <> [] -> forall r l c fuel, cur_at v l r c -> r <> [] -> room (l ++ r) -> (length r <= fuel)%nat ->
  exists c' l' r', inter_w1 v w fuel c d = Ok (c', match r' with [] => true | _ => false end) /\ cur_at v l' r' c' /\ l' ++ r' = l ++ r /\
    common r' s = common r s /\ (length r' <= length r)%nat /\
    (forall p x r2 q y s2, r' = (p, x) :: r2 -> s = (q, y) :: s2 -> q <= p).
Proof.
  intros D Ns r. destruct s as [|[q y] s]; [congruence|]. induction r as [|[p x] r IH]; intros l c fuel C Nr R F; [congruence|].
  pose proof (cur_sorted _ _ _ _ D) as SD. cbn [map fst] in SD. inversion SD as [|? ? _ FS]; subst.
  destruct fuel as [|fuel]; [cbn in F; lia|]. cbn [inter_w1]. rewrite (pos_ok _ _ _ _ _ _ C), (pos_ok _ _ _ _ _ _ D). cbn [bind].
  destruct (Z.ltb_spec p q) as [L|L].
  - destruct (next_ok _ _ _ _ _ _ C R) as (c1 & -> & C1). cbn [bind]. rewrite (end_ok _ _ _ _ C1). destruct r as [|[p2 x2] r].
    + exists c1, (l ++ [(p, x)]), []. split; auto. split; auto. split; [rewrite <- app_assoc; auto|]. split; [rewrite common_skip1 by auto; auto|]. split; [cbn; lia|discriminate].
    + destruct (IH (l ++ [(p, x)]) c1 fuel C1 ltac:(discriminate) ltac:(rewrite <- app_assoc; auto) ltac:(cbn in *; lia)) as (c' & l' & r' & E & C' & El & Ec & Elen & H).
      exists c', l', r'. split; auto. split; auto. split; [rewrite El, <- app_assoc; auto|]. split; [rewrite Ec, (common_skip1 p x) by auto; auto|]. split; [cbn in *; lia|auto].
  - exists c, l, ((p, x) :: r). do 5 (split; auto). intros. congruence.
Qed.
Lemma w2_ok l r c : cur_at v l r c -> r <> [] -> forall s m d fuel, cur_at w m s d -> s <> [] -> room (m ++ s) -> (length s <= fuel)%nat ->
  exists d' m' s', inter_w2 v w fuel c d = Ok (d', match s' with [] => true | _ => false end) /\ cur_at w m' s' d' /\ m' ++ s' = m ++ s /\
    common r s' = common r s /\ (length s' <= length s)%nat /\
    (forall p x r2 q y s2, r = (p, x) :: r2 -> s' = (q, y) :: s2 -> p <= q) /\
    (forall p x r2 q y s2, r = (p, x) :: r2 -> s = (q, y) :: s2 -> q < p -> (length s' < length s)%nat).
Proof.
  intros C Nr s. destruct r as [|[p x] r]; [congruence|]. induction s as [|[q y] s IH]; intros m d fuel D Ns R F; [congruence|].
  pose proof (cur_sorted _ _ _ _ C) as SD. cbn [map fst] in SD. inversion SD as [|? ? _ FS]; subst.
  destruct fuel as [|fuel]; [cbn in F; lia|]. cbn [inter_w2]. rewrite (pos_ok _ _ _ _ _ _ C), (pos_ok _ _ _ _ _ _ D). cbn [bind].
  destruct (Z.ltb_spec q p) as [L|L].
  - destruct (next_ok _ _ _ _ _ _ D R) as (d1 & -> & D1). cbn [bind]. rewrite (end_ok _ _ _ _ D1). destruct s as [|[q2 y2] s].
    + exists d1, (m ++ [(q, y)]), []. split; auto. split; auto. split; [rewrite <- app_assoc; auto|]. split; [rewrite common_skip2 by auto; auto|]. split; [cbn; lia|]. split; [discriminate|cbn; intros; lia].
    + destruct (IH (m ++ [(q, y)]) d1 fuel D1 ltac:(discriminate) ltac:(rewrite <- app_assoc; auto) ltac:(cbn in *; lia)) as (d' & m' & s' & E & D' & El & Ec & Elen & H & _).
      exists d', m', s'. split; auto. split; auto. split; [rewrite El, <- app_assoc; auto|]. split; [rewrite Ec, (common_skip2 p x r q y) by auto; auto|]. split; [cbn in *; lia|]. split; [auto|cbn in *; intros; lia].
  - exists d, m, ((q, y) :: s). do 5 (split; auto). split; intros; [congruence|]. assert (p0 = p) by congruence. assert (q0 = q) by congruence. lia.
Qed.
(** one pass of the search loop *)
Definition found r s r' s' (e : bool) : Prop :=
  if e then common r s = [] else exists p x r2 y s2, r' = (p, x) :: r2 /\ s' = (p, y) :: s2 /\ common r s = common r' s'.
Lemma vec_len {X} (u : sv X) l r c : cur_at u l r c -> length (vec u) = length (l ++ r).
Proof. intros ((Hv & _) & _). now rewrite Hv, map_length. Qed.
Lemma loop_ok : forall fuel r l c s m d, cur_at v l r c -> cur_at w m s d -> r <> [] -> s <> [] -> room (l ++ r) -> room (m ++ s) -> (length s < fuel)%nat ->
  exists c' d' e l' r' m' s', inter_loop v w fuel c d = Ok (c', d', e) /\ cur_at v l' r' c' /\ cur_at w m' s' d' /\ l' ++ r' = l ++ r /\ m' ++ s' = m ++ s /\
    found r s r' s' e /\ (length r' <= length r)%nat.
Proof.
  induction fuel as [|fuel IH]; intros r l c s m d C D Nr Ns R S F; [lia|]. cbn [inter_loop].
  destruct (w1_ok m s d D Ns r l c (length (vec v)) C Nr R) as (c1 & l1 & r1 & E1 & C1 & El1 & Ec1 & En1 & H1).
  { rewrite (vec_len _ _ _ _ C), app_length. lia. }
  rewrite E1. cbn [bind]. destruct s as [|[q y] s]; [congruence|]. destruct r1 as [|[p1 x1] r1].
  { exists c1, d, true, l1, [], m, ((q, y) :: s). split; auto. do 4 (split; auto). split; [cbn; rewrite <- Ec1; auto|cbn; lia]. }
  rewrite (pos_ok _ _ _ _ _ _ C1), (pos_ok _ _ _ _ _ _ D). cbn [bind]. destruct (Z.eqb_spec p1 q) as [->|N1].
  { exists c1, d, false, l1, ((q, x1) :: r1), m, ((q, y) :: s). split; auto. do 4 (split; auto). split; auto. exists q, x1, r1, y, s. auto. }
  assert (L1 : q < p1) by (pose proof (H1 _ _ _ _ _ _ eq_refl eq_refl); lia).
  destruct (w2_ok l1 _ c1 C1 ltac:(discriminate) ((q, y) :: s) m d (length (vec w)) D Ns S) as (d2 & m2 & s2 & E2 & D2 & El2 & Ec2 & En2 & H2 & H3).
  { rewrite (vec_len _ _ _ _ D), app_length. lia. }
  rewrite E2. cbn [bind]. specialize (H3 _ _ _ _ _ _ eq_refl eq_refl L1). destruct s2 as [|[q2 y2] s2].
  { exists c1, d2, true, l1, ((p1, x1) :: r1), m2, []. split; auto. do 4 (split; auto). split; auto. cbn [found]. rewrite <- Ec1, <- Ec2. apply common_nil. }
  rewrite ?(pos_ok _ _ _ _ _ _ C1), (pos_ok _ _ _ _ _ _ D2). cbn [bind]. destruct (Z.eqb_spec p1 q2) as [->|N2].
  { exists c1, d2, false, l1, ((q2, x1) :: r1), m2, ((q2, y2) :: s2). split; auto. do 4 (split; auto). split; auto. exists q2, x1, r1, y2, s2. split; auto. split; auto. congruence. }
  destruct (IH ((p1, x1) :: r1) l1 c1 ((q2, y2) :: s2) m2 d2 C1 D2) as (c' & d' & e & l' & r' & m' & s' & E & C' & D' & El & Em & Fd & En); try discriminate; try (rewrite ?El1, ?El2; auto); [lia|].
  exists c', d', e, l', r', m', s'. split; auto. split; auto. split; auto. split; [congruence|]. split; [congruence|]. split; [|lia].
  unfold found in *. destruct e; [congruence|]. destruct Fd as (p & x & r2 & y' & s3 & ? & ? & Fd). exists p, x, r2, y', s3. split; auto. split; auto. congruence.
Qed.
(** the state of an Intersection iterator: at a common position, or at the end *)
Definition inter_at (l : list (Z * A)) (m : list (Z * B)) r s (st : curr * curr * bool) : Prop :=
  let '(c, d, e) := st in
  (e = true /\ common r s = []) \/
  (e = false /\ exists l1 m1 p x r2 y s2, cur_at v l1 r c /\ cur_at w m1 s d /\ l1 ++ r = l /\ m1 ++ s = m /\ r = (p, x) :: r2 /\ s = (p, y) :: s2).
Lemma next_common l m p x r y s st : room l -> room m -> inter_at l m ((p, x) :: r) ((p, y) :: s) st -> snd st = false ->
  exists st' r' s', inter_next v w st = Ok st' /\ inter_at l m r' s' st' /\ common r' s' = common r ((p, y) :: s) /\ (length r' <= length r)%nat.
Proof.
  intros R S At E. destruct st as [[c d] e]. cbn [snd] in E. subst e. destruct At as [[? _]|(_ & l1 & m1 & p' & x' & r2 & y' & s2 & C & D & El & Em & Er & Es)]; [discriminate|].
  unfold inter_next. rewrite (pos_ok _ _ _ _ _ _ C), (pos_ok _ _ _ _ _ _ D). cbn [bind]. rewrite Z.eqb_refl.
  rewrite <- El in R. destruct (next_ok _ _ _ _ _ _ C R) as (c1 & -> & C1). cbn [bind]. rewrite (end_ok _ _ _ _ C1). destruct r as [|[p2 x2] r].
  - exists (c1, d, true), [], ((p, y) :: s). split; auto. split; [left; auto|]. split; auto.
  - destruct (loop_ok (Datatypes.S (length (vec v) + length (vec w))) ((p2, x2) :: r) (l1 ++ [(p, x)]) c1 ((p, y) :: s) m1 d C1 D) as (c' & d' & e' & l' & r' & m' & s' & E' & C' & D' & El' & Em' & Fd & En);
      try discriminate; [rewrite <- app_assoc; auto|congruence|rewrite (vec_len _ _ _ _ D), app_length; lia|].
    rewrite E'. destruct e'.
    + exists (c', d', true), [], s'. split; auto. split; [left; auto|]. split; [cbn [common flat_map]; symmetry; exact Fd|cbn; lia].
    + destruct Fd as (p3 & x3 & r3 & y3 & s3 & -> & -> & Fd). exists (c', d', false), ((p3, x3) :: r3), ((p3, y3) :: s3). split; auto. split; [|split; auto].
      right. split; auto. exists l', m', p3, x3, r3, y3, s3. do 2 (split; auto). split; [rewrite El', <- app_assoc; auto|]. split; [congruence|auto].
Qed.
Lemma inter_from_ok l m : room l -> room m -> forall fuel r s st, inter_at l m r s st -> (length r < fuel)%nat -> inter_from v w fuel st = Ok (common r s).
Proof.
  intros R S. induction fuel as [|fuel IH]; intros r s [[c d] e] At F; [lia|]. cbn [inter_from].
  destruct At as [[-> ->]|(-> & l1 & m1 & p & x & r2 & y & s2 & C & D & El & Em & -> & ->)]; auto.
  rewrite (pos_ok _ _ _ _ _ _ C), (val_ok _ _ _ _ _ _ C), (val_ok _ _ _ _ _ _ D). cbn [bind].
  destruct (next_common l m p x r2 y s2 (c, d, false) R S) as (st' & r' & s' & -> & At' & Ec & En); auto.
  { right. split; auto. exists l1, m1, p, x, r2, y, s2. auto 10. }
  cbn [bind]. rewrite (IH r' s' st' At') by (cbn in F; lia). cbn [bind]. rewrite Ec, common_same. reflexivity.
Qed.
Lemma init_ok l m c d : cur_at v [] l c -> cur_at w [] m d -> room l -> room m ->
  exists st r s, inter_init v w c d = Ok st /\ inter_at l m r s st /\ common r s = common l m /\ (length r <= length l)%nat.
Proof.
  intros C D R S. unfold inter_init. rewrite (end_ok _ _ _ _ C), (end_ok _ _ _ _ D).
  destruct l as [|[p x] l]; cbn [orb]; [exists (c, d, true), [], m; split; auto; split; [left; auto|auto]|].
  destruct m as [|[q y] m]; cbn [orb].
  { exists (c, d, true), ((p, x) :: l), []. split; auto. split; [left; split; auto; apply common_nil|auto]. }
  rewrite (pos_ok _ _ _ _ _ _ C), (pos_ok _ _ _ _ _ _ D). cbn [bind]. destruct (Z.eqb_spec p q) as [->|N]; cbn [negb].
  - exists (c, d, false), ((q, x) :: l), ((q, y) :: m). split; auto. split; [|auto]. right. split; auto. exists [], [], q, x, l, y, m. auto 10.
  - unfold inter_next. rewrite (pos_ok _ _ _ _ _ _ C), (pos_ok _ _ _ _ _ _ D). cbn [bind]. rewrite (proj2 (Z.eqb_neq p q) N). cbn [bind].
    destruct (loop_ok (Datatypes.S (length (vec v) + length (vec w))) _ _ c _ _ d C D) as (c' & d' & e' & l' & r' & m' & s' & E' & C' & D' & El' & Em' & Fd & En);
      try discriminate; auto; [rewrite (vec_len _ _ _ _ D); cbn [app length]; lia|]. cbn [app] in El', Em'.
    rewrite E'. destruct e'.
    + exists (c', d', true), [], s'. split; auto. split; [left; auto|]. split; [symmetry; exact Fd|cbn; lia].
    + destruct Fd as (p3 & x3 & r3 & y3 & s3 & -> & -> & Fd). exists (c', d', false), ((p3, x3) :: r3), ((p3, y3) :: s3). split; auto. split; [|split; auto].
      right. split; auto. exists l', m', p3, x3, r3, y3, s3. auto 10.
Qed.
End Inter.
Lemma intersection_ok {A B} (v : sv A) (w : sv B) l m : repr v l -> repr w m -> room l -> room m -> intersection v w = Ok (common l m).
Proof.
  intros Rv Rw R S. unfold intersection. destruct (begin_ok v l Rv R) as (c & v' & -> & C & _). cbn [bind].
  destruct (begin_ok w m Rw S) as (d & w' & -> & D & _). cbn [bind].
  destruct (init_ok v' w' l m c d C D R S) as (st & r & s & -> & At & <- & En). cbn [bind].
  apply (inter_from_ok v' w' l m R S); auto. rewrite (vec_len _ _ _ _ C). cbn [app]. lia.
Qed.
(** Intersection enumerates exactly the common positions, in increasing order, with both values *)
Theorem C50_intersection {A B} pv pw (v : sv A) (w : sv B) l m : reach pv v l -> reach pw w m -> room l -> room m ->
  exists u, intersection v w = Ok u /\ increasing (map (fun e => fst (fst e)) u) /\
    forall p x y, In (p, x, y) u <-> In (p, x) l /\ In (p, y) m.
Proof.
  intros Rv Rw R S. apply reach_repr in Rv, Rw. destruct Rv as [Rv _], Rw as [Rw _].
  pose proof (valid_sorted _ _ (proj1 (proj2 Rv))) as Sl. pose proof (valid_sorted _ _ (proj1 (proj2 Rw))) as Sm.
  exists (common l m). split; [apply intersection_ok; auto|].
  assert (I : forall p x y, In (p, x, y) (common l m) <-> In (p, x) l /\ In (p, y) m).
  { intros p x y. unfold common. rewrite in_flat_map. split.
    - intros ([q z] & Il & Im). cbn [fst snd] in Im. destruct (value_at m q) eqn:E; [|destruct Im]. destruct Im as [Im|[]]. injection Im as -> -> ->. split; auto. apply value_in; auto.
    - intros [Il Im]. exists (p, x). split; auto. cbn [fst snd]. apply value_in in Im; auto. rewrite Im. left; auto. }
  split; auto. unfold increasing in *. clear - Sl. induction l as [|[p x] l IH]; [constructor|]. cbn [map fst] in Sl. inversion Sl as [|? ? S1 F]; subst.
  unfold common. cbn [flat_map fst snd]. fold (common l m). rewrite map_app. destruct (value_at m p); cbn [map app fst]; auto. constructor; auto.
  rewrite Forall_forall in *. intros q Hq. apply in_map_iff in Hq. destruct Hq as ([[q' x'] y'] & <- & Hq). cbn [fst]. unfold common in Hq. apply in_flat_map in Hq. destruct Hq as ([q2 z] & Il & Im).
  cbn [fst snd] in Im. destruct (value_at m q2); [|destruct Im]. destruct Im as [Im|[]]. injection Im as <- <- <-. apply F. apply (in_map fst _ _ Il).
Qed.

(** ** Union *)
Section Union.
Context {A B : Type} (v : sv A) (w : sv B).
(** the merge of the rests *)
Fixpoint merge (fuel : nat) (r : list (Z * A)) (s : list (Z * B)) : list (Z * option A * option B) :=
  match fuel with
  | O => []
  | S n =>
      match r, s with
      | [], [] => []
      | (p, x) :: r', [] => (p, Some x, None) :: merge n r' s
      | [], (q, y) :: s' => (q, None, Some y) :: merge n r s'
      | (p, x) :: r', (q, y) :: s' =>
          if p <? q then (p, Some x, None) :: merge n r' s
          else if p =? q then (p, Some x, Some y) :: merge n r' s'
          else (q, None, Some y) :: merge n r s'
      end
  end.
Definition mode_of (r : list (Z * A)) (s : list (Z * B)) : mode :=
  match r, s with
  | [], [] => MEnd
  | _ :: _, [] => Only1
  | [], _ :: _ => Only2
  | (p, _) :: _, (q, _) :: _ => if p <? q then Small else if p =? q then Equal else Large
  end.
Definition pos_of (old : Z) (r : list (Z * A)) (s : list (Z * B)) : Z :=
  match r, s with
  | [], [] => old
  | (p, _) :: _, [] => p
  | [], (q, _) :: _ => q
  | (p, _) :: _, (q, _) :: _ => if p <? q then p else if p =? q then p else q
  end.
Lemma detect_ok l r c m s d old : cur_at v l r c -> cur_at w m s d -> detectMode v w old c d = Ok (mode_of r s, pos_of old r s).
Proof.
  intros C D. unfold detectMode. rewrite (end_ok _ _ _ _ C), (end_ok _ _ _ _ D).
  destruct r as [|[p x] r], s as [|[q y] s]; cbn [negb mode_of pos_of]; auto; rewrite ?(pos_ok _ _ _ _ _ _ C), ?(pos_ok _ _ _ _ _ _ D); cbn [bind]; auto.
  destruct (p <? q); auto. destruct (p =? q); auto.
Qed.
Lemma union_from_ok : forall fuel r l c s m d old, cur_at v l r c -> cur_at w m s d -> room (l ++ r) -> room (m ++ s) -> (length r + length s < fuel)%nat ->
  union_from v w fuel (mode_of r s) (pos_of old r s) c d = Ok (merge fuel r s).
Proof.
  induction fuel as [|fuel IH]; intros r l c s m d old C D R S F; [lia|].
  assert (NC : forall p x r', r = (p, x) :: r' -> exists c', it_next v c = Ok c' /\ cur_at v (l ++ [(p, x)]) r' c' /\ room ((l ++ [(p, x)]) ++ r')).
  { intros p x r' ->. destruct (next_ok _ _ _ _ _ _ C R) as (c' & E & C'). exists c'. split; auto. split; auto. rewrite <- app_assoc. auto. }
  assert (ND : forall q y s', s = (q, y) :: s' -> exists d', it_next w d = Ok d' /\ cur_at w (m ++ [(q, y)]) s' d' /\ room ((m ++ [(q, y)]) ++ s')).
  { intros q y s' ->. destruct (next_ok _ _ _ _ _ _ D S) as (d' & E & D'). exists d'. split; auto. split; auto. rewrite <- app_assoc. auto. }
  destruct r as [|[p x] r], s as [|[q y] s]; cbn [mode_of pos_of union_from merge]; auto.
  - destruct (ND _ _ _ eq_refl) as (d' & E & D' & S'). cbn [hasVal1 hasVal2 union_next bind]. rewrite (val_ok _ _ _ _ _ _ D), E. cbn [bind].
    rewrite (detect_ok _ _ _ _ _ _ q C D'). cbn [bind]. rewrite (IH _ _ _ _ _ _ q C D'); auto. cbn in *; lia.
  - destruct (NC _ _ _ eq_refl) as (c' & E & C' & R'). cbn [hasVal1 hasVal2 union_next bind]. rewrite (val_ok _ _ _ _ _ _ C), E. cbn [bind].
    rewrite (detect_ok _ _ _ _ _ _ p C' D). cbn [bind]. rewrite (IH _ _ _ _ _ _ p C' D); auto. cbn in *; lia.
  - destruct (NC _ _ _ eq_refl) as (c' & E & C' & R'). destruct (ND _ _ _ eq_refl) as (d' & E2 & D' & S').
    destruct (p <? q); [|destruct (p =? q)]; cbn [hasVal1 hasVal2 union_next bind]; rewrite ?(val_ok _ _ _ _ _ _ C), ?(val_ok _ _ _ _ _ _ D), ?E, ?E2; cbn [bind]; rewrite ?E2; cbn [bind].
    + rewrite (detect_ok _ _ _ _ _ _ p C' D). cbn [bind]. rewrite (IH _ _ _ _ _ _ p C' D); auto. cbn in *; lia.
    + rewrite (detect_ok _ _ _ _ _ _ p C' D'). cbn [bind]. rewrite (IH _ _ _ _ _ _ p C' D'); auto. cbn in *; lia.
    + rewrite (detect_ok _ _ _ _ _ _ q C D'). cbn [bind]. rewrite (IH _ _ _ _ _ _ q C D'); auto. cbn in *; lia.
Qed.
Lemma value_cons {X} p x (l : list (Z * X)) k : value_at ((p, x) :: l) k = if p =? k then Some x else value_at l k.
Proof. unfold value_at. cbn [find fst]. destruct (p =? k); auto. Qed.
Lemma merge_spec : forall fuel r s, increasing (map fst r) -> increasing (map fst s) -> (length r + length s < fuel)%nat ->
  let u := merge fuel r s in
  increasing (map (fun e => fst (fst e)) u) /\
  (forall k ox oy, In (k, ox, oy) u <-> ox = value_at r k /\ oy = value_at s k /\ (ox <> None \/ oy <> None)) /\
  (forall b, Forall (Z.lt b) (map fst r) -> Forall (Z.lt b) (map fst s) -> Forall (Z.lt b) (map (fun e => fst (fst e)) u)).
Proof.
  induction fuel as [|fuel IH]; intros r s Sr Ss F; [lia|].
  assert (K : forall k X (t : list (Z * X)), Forall (Z.lt k) (map fst t) -> value_at t k = None) by (intros; eapply value_above; eauto; lia).
  destruct r as [|[p x] r], s as [|[q y] s]; cbn [merge map fst] in *.
  - split; [constructor|]. split; [|constructor]. intros k ox oy. cbn. split; [tauto|]. intros (-> & -> & [|]); congruence.
  - inversion Ss as [|? ? S1 F1]; subst. destruct (IH [] s Sr S1 ltac:(cbn in *; lia)) as (I1 & I2 & I3). split; [constructor; auto; apply I3; auto; constructor|]. split.
    + intros k ox oy. rewrite value_cons. cbn [In]. rewrite I2. destruct (Z.eqb_spec q k) as [<-|N].
      * rewrite (K q _ s F1). split; [intros [E|(-> & -> & [|])]; [injection E as <- <-; cbn; split; auto; split; auto; right; discriminate|cbn in *; congruence..]|]. intros (-> & -> & _). left. reflexivity.
      * split; [intros [E|E]; [congruence|auto]|auto].
    + intros b G1 G2. inversion G2; subst. constructor; auto.
  - inversion Sr as [|? ? S1 F1]; subst. destruct (IH r [] S1 Ss ltac:(cbn in *; lia)) as (I1 & I2 & I3). split; [constructor; auto; apply I3; auto; constructor|]. split.
    + intros k ox oy. rewrite value_cons. cbn [In]. rewrite I2. destruct (Z.eqb_spec p k) as [<-|N].
      * rewrite (K p _ r F1). split; [intros [E|(-> & -> & [|])]; [injection E as <- <-; cbn; split; auto; split; auto; left; discriminate|cbn in *; congruence..]|]. intros (-> & -> & _). left. reflexivity.
      * split; [intros [E|E]; [congruence|auto]|auto].
    + intros b G1 G2. inversion G1; subst. constructor; auto.
  - inversion Ss as [|? ? S2 F2]; subst. inversion Sr as [|? ? S1 F1]; subst. destruct (Z.ltb_spec p q) as [L|L]; [|destruct (Z.eqb_spec p q) as [->|N]]; cbn [map fst].
    + assert (F3 : Forall (Z.lt p) (map fst ((q, y) :: s))) by (constructor; [cbn; lia|eapply Forall_impl; [|exact F2]; cbn; lia]).
      destruct (IH r ((q, y) :: s) S1 Ss ltac:(cbn in *; lia)) as (I1 & I2 & I3). split; [constructor; auto|]. split.
      * intros k ox oy. rewrite (value_cons p x). cbn [In]. rewrite I2. destruct (Z.eqb_spec p k) as [<-|N].
        -- rewrite (K p _ r F1), (K p _ _ F3). split; [intros [E|(-> & -> & [|])]; [injection E as <- <-; split; auto; split; auto; left; discriminate|congruence..]|]. intros (-> & -> & _). left. reflexivity.
        -- split; [intros [E|E]; [congruence|auto]|auto].
      * intros b G1 G2. inversion G1; subst. constructor; auto.
    + destruct (IH r s S1 S2 ltac:(cbn in *; lia)) as (I1 & I2 & I3). split; [constructor; auto|]. split.
      * intros k ox oy. rewrite (value_cons q x), (value_cons q y). cbn [In]. rewrite I2. destruct (Z.eqb_spec q k) as [<-|N].
        -- rewrite (K q _ r F1), (K q _ s F2). split; [intros [E|(-> & -> & [|])]; [injection E as <- <-; split; auto; split; auto; left; discriminate|congruence..]|]. intros (-> & -> & _). left. reflexivity.
        -- split; [intros [E|E]; [congruence|auto]|auto].
      * intros b G1 G2. inversion G1; inversion G2; subst. constructor; auto.
    + assert (F3 : Forall (Z.lt q) (map fst ((p, x) :: r))) by (constructor; [cbn; lia|eapply Forall_impl; [|exact F1]; cbn; lia]).
      destruct (IH ((p, x) :: r) s Sr S2 ltac:(cbn in *; lia)) as (I1 & I2 & I3). split; [constructor; auto|]. split.
      * intros k ox oy. rewrite (value_cons q y). cbn [In]. rewrite I2. destruct (Z.eqb_spec q k) as [<-|N2].
        -- rewrite (K q _ s F2), (K q _ _ F3). split; [intros [E|(-> & -> & [|])]; [injection E as <- <-; split; auto; split; auto; right; discriminate|congruence..]|]. intros (-> & -> & _). left. reflexivity.
        -- split; [intros [E|E]; [congruence|auto]|auto].
      * intros b G1 G2. inversion G2; subst. constructor; auto.
Qed.
End Union.
(** Union enumerates exactly the positions of either vector, in increasing order, each once, with the values present *)
Theorem C50_union {A B} pv pw (v : sv A) (w : sv B) l m : reach pv v l -> reach pw w m -> room l -> room m ->
  exists u, union v w = Ok u /\ increasing (map (fun e => fst (fst e)) u) /\
    forall p ox oy, In (p, ox, oy) u <-> ox = value_at l p /\ oy = value_at m p /\ (ox <> None \/ oy <> None).
Proof.
  intros Rv Rw R S. apply reach_repr in Rv, Rw. destruct Rv as [Rv _], Rw as [Rw _].
  pose proof (valid_sorted _ _ (proj1 (proj2 Rv))) as Sl. pose proof (valid_sorted _ _ (proj1 (proj2 Rw))) as Sm.
  unfold union. destruct (begin_ok v l Rv R) as (c & v' & -> & C & _). cbn [bind]. destruct (begin_ok w m Rw S) as (d & w' & -> & D & _). cbn [bind].
  rewrite (detect_ok v' w' _ _ _ _ _ _ 0 C D). cbn [bind]. rewrite (vec_len _ _ _ _ C), (vec_len _ _ _ _ D). cbn [app].
  rewrite (union_from_ok v' w' _ _ _ _ _ _ _ 0 C D); auto. eexists. split; [reflexivity|].
  destruct (merge_spec (Datatypes.S (length l + length m)) l m Sl Sm ltac:(lia)) as (I1 & I2 & _). auto.
Qed.

(** ** Inner product *)
(** the sum, in the arithmetic of Ret, over the common positions in increasing order *)
Definition products {R A B} (mul : R -> R -> R) (ra : A -> R) (rb : B -> R) (u : list (Z * A * B)) : list R :=
  map (fun e => let '(_, x, y) := e in mul (ra x) (rb y)) u.
Theorem C50_inner {R A B} (zero : R) add mul (ra : A -> R) (rb : B -> R) pv pw (v : sv A) (w : sv B) l m :
  reach pv v l -> reach pw w m -> room l -> room m ->
  exists u, intersection v w = Ok u /\ InnerProduct zero add mul ra rb false v w = Ok (fold_left add (products mul ra rb u) zero).
Proof.
  intros Rv Rw HR HS. destruct (C50_intersection pv pw v w l m Rv Rw HR HS) as (u & E & _). exists u. split; auto.
  unfold InnerProduct. rewrite E. cbn [bind]. f_equal. clear E. revert zero. induction u as [|[[p x] y] u IH]; intros zero; cbn [fold_left products map]; auto.
Qed.
(** with one object on both sides: the sum of the squares, the same as with two equal vectors *)
Theorem C50_inner_same {R A} (zero : R) add mul (ra : A -> R) pv (v : sv A) l : reach pv v l -> room l ->
  InnerProduct zero add mul ra ra true v v = Ok (fold_left add (map (fun e => mul (ra (snd e)) (ra (snd e))) l) zero) /\
  InnerProduct zero add mul ra ra false v v = InnerProduct zero add mul ra ra true v v /\
  norm zero add mul ra v = InnerProduct zero add mul ra ra true v v.
Proof.
  intros Rv HR. apply reach_repr in Rv. destruct Rv as [Rv _]. unfold InnerProduct, norm. destruct (iterate_ok v l Rv HR) as (v' & -> & _ & _). cbn [bind].
  rewrite (intersection_ok v v l l Rv Rv HR HR). cbn [bind].
  assert (E : common l l = map (fun e => (fst e, snd e, snd e)) l).
  { pose proof (valid_sorted _ _ (proj1 (proj2 Rv))) as Sl. unfold common. assert (V : forall e, In e l -> value_at l (fst e) = Some (snd e)) by (intros [p x] I; apply value_in; auto).
    revert V. generalize l at 1 4 5. intros k. induction k as [|e k IH]; intros V; cbn [flat_map map]; auto. rewrite V by (left; auto). cbn [app]. rewrite IH; auto. intros; apply V; right; auto. }
  assert (G : forall z, fold_left (fun r e => add r (mul (ra (snd e)) (ra (snd e)))) l z = fold_left add (map (fun e => mul (ra (snd e)) (ra (snd e))) l) z).
  { clear. induction l as [|e l IH]; intros z; cbn [fold_left map]; auto. }
  assert (H : forall z, fold_left (fun r e => let '(_, x, y) := e in add r (mul (ra x) (ra y))) (map (fun e : Z * A => (fst e, snd e, snd e)) l) z = fold_left add (map (fun e => mul (ra (snd e)) (ra (snd e))) l) z).
  { clear. induction l as [|e l IH]; intros z; cbn [fold_left map]; auto. }
  rewrite E, G, H. auto.
Qed.
Example C50_case :
  let v := fst (sv_set (sv_new true) [(1, 10); (3, 20); (7, 30); (100, 5)]) in
  let w := fst (sv_set (sv_new false) [(0, 1); (3, 2); (100, 3); (101, 4)]) in
  intersection v w = Ok [(3, 20, 2); (100, 5, 3)] /\ InnerProduct 0 Z.add Z.mul (fun x => x) (fun x => x) false v w = Ok 55 /\
  union v w = Ok [(0, None, Some 1); (1, Some 10, None); (3, Some 20, Some 2); (7, Some 30, None); (100, Some 5, Some 3); (101, None, Some 4)].
Proof. repeat split. Qed.
Example C50_case_reach : reach true (fst (sv_set (sv_new true) [(1, 10); (3, 20)])) [(1, 10); (3, 20)].
Proof. exact (reach_push true _ _ 3 20 _ _ (reach_push true _ _ 1 10 _ _ (reach_new true) ltac:(lia) eq_refl) ltac:(lia) eq_refl). Qed.

Print Assumptions C49_history. Print Assumptions C49_pairs. Print Assumptions C49_equal. Print Assumptions C49_save_load.
Print Assumptions C50_intersection. Print Assumptions C50_union. Print Assumptions C50_inner. Print Assumptions C50_inner_same.
