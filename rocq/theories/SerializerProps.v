(** Properties C09, C10 (serializer.hpp). *)
Require Import Permutation Sorted.
Require Import Verif.Common Verif.StreamModel Verif.StreamProps Verif.EndianModel Verif.EndianProps Verif.SerializerModel.

(** ** loadPod after savePod *)
Lemma savePod_len little n x : zlen (savePod little n x) = Z.of_nat n.
Proof. unfold savePod, zlen. destruct little; rewrite ?rev_length, to_le_length; auto. Qed.

Lemma loadPod_savePod little n x rest sch : 0 <= x < 256 ^ Z.of_nat n ->
  exists sch', loadPod little n (mk_is (savePod little n x ++ rest) sch) = Ok (x, mk_is rest sch').
Proof.
  intros Hx. unfold loadPod.
  destruct (C11_read_exact (Z.of_nat n) (savePod little n x ++ rest) sch ltac:(lia)) as [R _].
  destruct (R _ _ eq_refl (savePod_len little n x)) as (sch' & E). rewrite E. cbn [bind]. exists sch'.
  assert (of_le (to_le n x) = x). { rewrite of_le_value, to_le_value. apply Z.mod_small; auto. }
  unfold savePod. destruct little; rewrite ?rev_involutive; congruence.
Qed.

Lemma loadPod_short little n data sch : zlen data < Z.of_nat n -> loadPod little n (mk_is data sch) = Exn.
Proof.
  intros H. unfold loadPod. destruct (C11_read_exact (Z.of_nat n) data sch ltac:(lia)) as [_ E]. rewrite E; auto.
Qed.

Lemma savePod1 little h : 0 <= h < 256 -> savePod little 1 h = [h].
Proof. intros H. unfold savePod. cbn [to_le rev app]. rewrite Z.mod_small by lia. destruct little; auto. Qed.

Lemma loadPod1 little h r sch : 0 <= h < 256 -> exists sch', loadPod little 1 (mk_is (h :: r) sch) = Ok (h, mk_is r sch').
Proof. intros H. destruct (loadPod_savePod little 1 h r sch) as (s & E); [simpl; lia|]. rewrite savePod1 in E by auto. eauto. Qed.

(** ** C09 *)
Definition in_range (t : cint) (x : Z) : Prop :=
  if c_signed t then - 2 ^ (8 * c_size t - 1) <= x < 2 ^ (8 * c_size t - 1) else 0 <= x < 2 ^ (8 * c_size t).
Definition cint_ok (t : cint) : Prop := c_size t = 4 \/ c_size t = 8.

Lemma s_of_u b x : 0 < b -> to_s b (to_u b x) = to_s b x.
Proof.
  intros Hb. unfold to_s, to_u. rewrite Zplus_mod_idemp_l. reflexivity.
Qed.
Lemma to_u_range b x : 0 < b -> 0 <= to_u b x < 2 ^ b.
Proof. intros. unfold to_u. apply Z.mod_pos_bound. apply Z.pow_pos_nonneg; lia. Qed.

Lemma castT_id t x : cint_ok t -> in_range t x -> castT t x = x.
Proof.
  unfold cint_ok, in_range, castT, to_s, to_u. intros [->| ->]; destruct (c_signed t); cbn [Z.mul Pos.mul Z.sub];
  intros H; rewrite Z.mod_small; lia.
Qed.
Lemma castT_u t x : cint_ok t -> in_range t x -> castT t (to_u (8 * c_size t) x) = x.
Proof.
  intros Ho Hr. rewrite <- (castT_id t x) at 2 by auto. unfold castT, to_s, to_u.
  destruct (c_signed t).
  - rewrite Zplus_mod_idemp_l. auto.
  - rewrite Zmod_mod. auto.
Qed.

(** the byte strings written, as a relation between header and body *)
Definition enc_ok little t x enc : Prop :=
  exists h body, enc = h :: body /\ 0 <= h < 256 /\
  (forall rest sch, exists sch', loadVariableInt little t (mk_is (enc ++ rest) sch) = Ok (x, mk_is rest sch')) /\
  (forall p q sch, body = p ++ q -> q <> [] -> loadVariableInt little t (mk_is (h :: p) sch) = Exn).

Lemma enc_body little t x h n v (f : Z -> Z) :
  0 <= h < 256 -> 0 <= v < 256 ^ Z.of_nat n -> (1 <= n)%nat -> castT t (f v) = x ->
  (forall r sch, exists sch', loadVariableInt little t (mk_is (h :: r) sch) =
       let! (w, is) := loadPod little n (mk_is r sch') in Ok (castT t (f w), is)) ->
  enc_ok little t x (savePod little 1 h ++ savePod little n v).
Proof.
  intros Hh Hv Hn Hx Hl. rewrite savePod1 by auto. exists h, (savePod little n v). split; [reflexivity|]. split; auto. split.
  - intros rest sch. cbn [app]. destruct (Hl (savePod little n v ++ rest) sch) as (sch1 & E). rewrite E.
    destruct (loadPod_savePod little n v rest sch1 Hv) as (sch2 & E2). rewrite E2. cbn [bind]. rewrite Hx. eauto.
  - intros p q sch Hpq Hq. destruct (Hl p sch) as (sch1 & E). rewrite E.
    rewrite loadPod_short; auto.
    assert (L := savePod_len little n v). rewrite Hpq, zlen_app in L.
    assert (0 < zlen q) by (destruct q; [congruence|rewrite zlen_cons; pose proof (zlen_nonneg q); lia]). lia.
Qed.

Ltac hdr := intros r sch;
  match goal with |- context [loadVariableInt ?l ?t (mk_is (?h :: r) sch)] =>
    destruct (loadPod1 l h r sch ltac:(lia)) as (s' & E'); exists s'; unfold loadVariableInt; rewrite E'; reflexivity end.

Lemma save_ok little t x : cint_ok t -> in_range t x ->
  exists enc, saveVariableInt little t x = Ok enc /\ enc_ok little t x enc.
Proof.
  intros Ho Hr. unfold saveVariableInt, isRecoverable.
  destruct (castT t (to_s 8 x) =? x) eqn:E1.
  { eexists. split; [reflexivity|]. pose proof (to_u_range 8 x ltac:(lia)) as U. change (2 ^ 8) with 256 in U.
    set (u := to_u 8 x) in *.
    assert (H32: to_u 32 (u - 128) = if u <? 128 then u - 128 + 2 ^ 32 else u - 128).
    { unfold to_u. destruct (u <? 128) eqn:Eu.
      - rewrite <- (Z_mod_plus_full _ 1). apply Z.mod_small. lia.
      - apply Z.mod_small. lia. }
    rewrite H32. destruct ((if u <? 128 then u - 128 + 2 ^ 32 else u - 128) <=? 7) eqn:E2.
    - apply enc_body with (f := to_s 8); try (simpl; lia).
      + unfold u. rewrite s_of_u by lia. lia.
      + hdr.
    - cbn [app]. rewrite savePod1 by lia. exists u, []. split; [auto|]. split; [auto|]. split.
      + intros rest sch. cbn [app]. destruct (loadPod1 little u rest sch U) as (s' & E'). exists s'.
        unfold loadVariableInt. rewrite E'. cbn [bind].
        assert (N: u < 128 \/ 135 < u) by (destruct (u <? 128) eqn:Eu; lia).
        repeat match goal with |- context [u =? ?k] => destruct (u =? k) eqn:?E; [lia|] end.
        unfold u. rewrite s_of_u by lia. do 2 f_equal. lia.
      + intros p q sch Hpq Hq. symmetry in Hpq. apply app_eq_nil in Hpq as [_ ->]. congruence. }
  destruct (castT t (to_u 8 x) =? x) eqn:E2.
  { eexists. split; [reflexivity|]. pose proof (to_u_range 8 x ltac:(lia)).
    apply enc_body with (f := fun v => v); try (simpl; lia). hdr. }
  destruct ((castT t (to_u 16 x) =? x) || (castT t (to_s 16 x) =? x)) eqn:E3.
  { eexists. split; [reflexivity|]. pose proof (to_u_range 16 x ltac:(lia)).
    destruct (castT t (to_u 16 x) =? x) eqn:E4.
    - apply enc_body with (f := fun v => v); try (simpl; lia). hdr.
    - apply enc_body with (f := to_s 16); try (simpl; lia). rewrite s_of_u by lia. simpl in E3; lia. hdr. }
  destruct ((castT t (to_u 32 x) =? x) || (castT t (to_s 32 x) =? x)) eqn:E5.
  { eexists. split; [reflexivity|]. pose proof (to_u_range 32 x ltac:(lia)).
    destruct (castT t (to_u 32 x) =? x) eqn:E6.
    - apply enc_body with (f := fun v => v); try (simpl; lia). hdr.
    - apply enc_body with (f := to_s 32); try (simpl; lia). rewrite s_of_u by lia. simpl in E5; lia. hdr. }
  pose proof (castT_u t x Ho Hr) as C.
  destruct (c_size t =? 8) eqn:E7.
  - eexists. split; [reflexivity|]. pose proof (to_u_range 64 x ltac:(lia)).
    assert (c_size t = 8) by lia. rewrite H0 in C. change (8 * 8) with 64 in C.
    apply enc_body with (f := fun v => v); try (simpl; lia).
    intros r sch. destruct (loadPod1 little 131 r sch ltac:(lia)) as (s' & E'). exists s'.
    unfold loadVariableInt. rewrite E', H0. reflexivity.
  - destruct Ho as [Ho|Ho]; [|lia]. rewrite Ho in C. change (8 * 4) with 32 in C. lia.
Qed.

(** C09: for both byte orders, 4- and 8-byte, signed and unsigned types, every value, whatever follows
    in the stream and however it is cut into short reads; and every truncation of the encoding throws. *)
Theorem C09_variable_int : forall little t x, cint_ok t -> in_range t x ->
  exists enc, saveVariableInt little t x = Ok enc /\ (1 <= length enc <= 9)%nat /\
    (forall rest sched, exists sched',
       loadVariableInt little t (mk_is (enc ++ rest) sched) = Ok (x, mk_is rest sched')) /\
    (forall p q sched, enc = p ++ q -> q <> [] -> loadVariableInt little t (mk_is p sched) = Exn).
Proof.
  intros little t x Ho Hr. destruct (save_ok little t x Ho Hr) as (enc & S & (h & body & -> & Hh & L & T)).
  exists (h :: body). split; auto. split; [|split; auto].
  - revert S. unfold saveVariableInt.
    assert (P: forall n v, length (savePod little n v) = n) by (intros n v; pose proof (savePod_len little n v); unfold zlen in *; lia).
    repeat match goal with |- context [if ?b then _ else _] => destruct b end; intros S; try discriminate;
    injection S as S; rewrite <- S; rewrite ?app_length, ?P; simpl; lia.
  - intros p q sched Hpq Hq. destruct p as [|c p].
    + unfold loadVariableInt. rewrite loadPod_short; auto; unfold zlen; simpl; lia.
    + injection Hpq as <- Hb. eapply T; eauto.
Qed.

Example C09_nonvacuous :
  saveVariableInt true (mk_cint 8 true) (-129) = Ok [133;127;255] /\
  saveVariableInt true (mk_cint 4 false) (2 ^ 32 - 1) = Ok [255] /\
  saveVariableInt true (mk_cint 8 false) 130 = Ok [128;130] /\
  loadVariableInt true (mk_cint 8 true) (mk_is [133;127;255;7] [1;1;1]) = Ok (-129, mk_is [7] []) /\
  cint_ok (mk_cint 8 true) /\ in_range (mk_cint 8 true) (-129).
Proof. repeat split; try reflexivity. right. reflexivity. vm_compute; congruence. Qed.

(** finding: the encoding does not carry the width: 2^32-1 saved as unsigned int and loaded as an
    8-byte unsigned gives 2^64-1 *)
Theorem C09_cross_width_finding :
  saveVariableInt true (mk_cint 4 false) (2 ^ 32 - 1) = Ok [255] /\
  loadVariableInt true (mk_cint 8 false) (mk_is [255] []) = Ok (2 ^ 64 - 1, mk_is [] []).
Proof. split; reflexivity. Qed.

(** ** C10: generic combinators *)
Definition round_trip {A} (c : codec A) (valid : A -> Prop) : Prop :=
  forall x, valid x -> exists enc, c_save c x = Ok enc /\
    forall rest sched, exists sched', c_load c (c_default c) (mk_is (enc ++ rest) sched) = Ok (x, mk_is rest sched').

Section RT.
Variable little : bool.
Variable size_t : cint.
Hypothesis size_ok : cint_ok size_t /\ c_signed size_t = false.
Definition fits (n : Z) : Prop := n < 2 ^ (8 * c_size size_t).

Lemma size_rt n : 0 <= n -> fits n -> exists enc, saveVariableInt little size_t n = Ok enc /\
  forall rest sched, exists sched', loadVariableInt little size_t (mk_is (enc ++ rest) sched) = Ok (n, mk_is rest sched').
Proof.
  intros H0 Hn. destruct (C09_variable_int little size_t n) as (enc & S & _ & L & _); [apply size_ok| |eauto].
  unfold in_range. destruct size_ok as [_ ->]. unfold fits in Hn. lia.
Qed.

Lemma rt_int t : cint_ok t -> round_trip (codec_int little t) (in_range t).
Proof.
  intros Ho x Hx. destruct (C09_variable_int little t x Ho Hx) as (enc & S & _ & L & _). exists enc. split; auto.
Qed.
Lemma rt_pod n : round_trip (codec_pod little n) (fun x => 0 <= x < 256 ^ Z.of_nat n).
Proof.
  intros x Hx. exists (savePod little n x). split; auto. intros rest sched. apply loadPod_savePod; auto.
Qed.
Lemma rt_string : round_trip (codec_string little size_t) (fun s => fits (zlen s)).
Proof.
  intros s Hs. destruct (size_rt (zlen s) (zlen_nonneg s) Hs) as (h & S & L).
  cbn [c_save codec_string]. rewrite S. cbn [bind]. eexists. split; [reflexivity|].
  intros rest sched. cbn [c_load codec_string c_default]. rewrite <- app_assoc.
  destruct (L (s ++ rest) sched) as (sch1 & E). rewrite E. cbn [bind].
  destruct (0 <? zlen s) eqn:E0.
  - destruct (C11_read_exact (zlen s) (s ++ rest) sch1 (zlen_nonneg s)) as [R _]. apply R; auto.
  - destruct s; [eauto|rewrite zlen_cons in E0; pose proof (zlen_nonneg s); lia].
Qed.

Definition all_valid {A} (valid : A -> Prop) (l : list A) : Prop := Forall valid l /\ fits (zlen l).

Lemma save_all_ok {A} (c : codec A) valid l : round_trip c valid -> Forall valid l ->
  exists body, save_all (c_save c) l = Ok body.
Proof.
  intros R. induction 1 as [|x l Hx Hl (b & IH)]; [simpl; eauto|].
  destruct (R x Hx) as (e & S & _). cbn [save_all]. rewrite S, IH. cbn [bind]. eauto.
Qed.

Lemma load_seq_ok {A} (c : codec A) valid l : round_trip c valid -> Forall valid l ->
  forall body, save_all (c_save c) l = Ok body -> forall acc rest sched, exists sched',
    load_seq c (length l) acc (mk_is (body ++ rest) sched) = Ok (acc ++ l, mk_is rest sched').
Proof.
  intros R. induction 1 as [|x l Hx Hl IH]; intros body Hb acc rest sched.
  - injection Hb as <-. simpl. rewrite app_nil_r. eauto.
  - cbn [save_all] in Hb. destruct (R x Hx) as (e & S & L). rewrite S in Hb. cbn [bind] in Hb.
    destruct (save_all (c_save c) l) as [b| | |] eqn:E; try discriminate. injection Hb as <-.
    cbn [length load_seq]. rewrite <- app_assoc. destruct (L (b ++ rest) sched) as (s1 & E1). rewrite E1. cbn [bind].
    destruct (IH b eq_refl (acc ++ [x]) rest s1) as (s2 & E2). rewrite E2, <- app_assoc. eauto.
Qed.

(** vector / list; loading replaces whatever the object held *)
Lemma rt_seq_into {A} (c : codec A) valid : round_trip c valid -> forall l, all_valid valid l ->
  exists enc, c_save (codec_seq little size_t c) l = Ok enc /\
    forall old rest sched, exists sched',
      c_load (codec_seq little size_t c) old (mk_is (enc ++ rest) sched) = Ok (l, mk_is rest sched').
Proof.
  intros R l [Hl Hf]. destruct (size_rt (zlen l) (zlen_nonneg l) Hf) as (h & S & L).
  destruct (save_all_ok c valid l R Hl) as (b & B).
  cbn [c_save codec_seq]. rewrite S, B. cbn [bind]. eexists. split; [reflexivity|].
  intros old rest sched. cbn [c_load codec_seq]. rewrite <- app_assoc.
  destruct (L (b ++ rest) sched) as (s1 & E). rewrite E. cbn [bind]. rewrite to_nat_zlen.
  apply (load_seq_ok c valid l R Hl b B []).
Qed.

Lemma load_set_ok {A} (c : codec A) (ins : A -> list A -> list A) valid l : round_trip c valid -> Forall valid l ->
  forall body, save_all (c_save c) l = Ok body -> forall acc rest sched, exists sched',
    load_set c ins (length l) acc (mk_is (body ++ rest) sched) = Ok (fold_left (fun a x => ins x a) l acc, mk_is rest sched').
Proof.
  intros R. induction 1 as [|x l Hx Hl IH]; intros body Hb acc rest sched.
  - injection Hb as <-. simpl. eauto.
  - cbn [save_all] in Hb. destruct (R x Hx) as (e & S & L). rewrite S in Hb. cbn [bind] in Hb.
    destruct (save_all (c_save c) l) as [b| | |] eqn:E; try discriminate. injection Hb as <-.
    cbn [length load_set fold_left]. rewrite <- app_assoc. destruct (L (b ++ rest) sched) as (s1 & E1). rewrite E1. cbn [bind].
    apply (IH b eq_refl).
Qed.

Lemma set_into {A} (c : codec A) ins valid : round_trip c valid -> forall l, all_valid valid l ->
  exists enc, c_save (codec_set_with little size_t c ins) l = Ok enc /\
    forall old rest sched, exists sched',
      c_load (codec_set_with little size_t c ins) old (mk_is (enc ++ rest) sched)
      = Ok (fold_left (fun a x => ins x a) l old, mk_is rest sched').
Proof.
  intros R l [Hl Hf]. destruct (size_rt (zlen l) (zlen_nonneg l) Hf) as (h & S & L).
  destruct (save_all_ok c valid l R Hl) as (b & B).
  cbn [c_save codec_set_with]. rewrite S, B. cbn [bind]. eexists. split; [reflexivity|].
  intros old rest sched. cbn [c_load codec_set_with]. rewrite <- app_assoc.
  destruct (L (b ++ rest) sched) as (s1 & E). rewrite E. cbn [bind]. rewrite to_nat_zlen.
  apply (load_set_ok c ins valid l R Hl b B).
Qed.

Lemma rt_pair {A B} (ca : codec A) (cb : codec B) va vb : round_trip ca va -> round_trip cb vb ->
  round_trip (codec_pair ca cb) (fun p => va (fst p) /\ vb (snd p)).
Proof.
  intros Ra Rb [a b] [Ha Hb]. destruct (Ra a Ha) as (ea & Sa & La). destruct (Rb b Hb) as (eb & Sb & Lb).
  cbn [c_save codec_pair fst snd]. rewrite Sa, Sb. cbn [bind]. eexists. split; [reflexivity|].
  intros rest sched. cbn [c_load codec_pair c_default fst snd]. rewrite <- app_assoc.
  destruct (La (eb ++ rest) sched) as (s1 & E1). rewrite E1. cbn [bind].
  destruct (Lb rest s1) as (s2 & E2). rewrite E2. cbn [bind]. eauto.
Qed.
End RT.

(** strict orders and sorted insertion *)
Record strict_order {A} (ltb : A -> A -> bool) : Prop := {
  so_irrefl : forall x, ltb x x = false;
  so_trans : forall x y z, ltb x y = true -> ltb y z = true -> ltb x z = true
}.
Definition sorted_by {A} (ltb : A -> A -> bool) (l : list A) : Prop := StronglySorted (fun x y => ltb x y = true) l.

Lemma insert_last {A} (ltb : A -> A -> bool) (O : strict_order ltb) x acc :
  Forall (fun y => ltb y x = true) acc -> insert_by ltb x acc = acc ++ [x].
Proof.
  induction 1 as [|y l Hy Hl IH]; [reflexivity|]. cbn [insert_by app].
  destruct (ltb x y) eqn:E.
  - pose proof (so_trans _ O _ _ _ E Hy) as C. rewrite (so_irrefl _ O) in C. discriminate.
  - rewrite Hy, IH. reflexivity.
Qed.
Lemma fold_insert_sorted {A} (ltb : A -> A -> bool) (O : strict_order ltb) l : forall acc,
  sorted_by ltb (acc ++ l) -> fold_left (fun a x => insert_by ltb x a) l acc = acc ++ l.
Proof.
  induction l as [|x l IH]; intros acc Hs; [simpl; rewrite app_nil_r; auto|].
  cbn [fold_left]. rewrite insert_last; auto.
  - rewrite IH; rewrite <- app_assoc; auto.
  - clear IH. induction acc as [|y acc IH]; constructor; inversion Hs as [|? ? Hs' Hf]; subst.
    + apply Forall_app in Hf as [_ Hf]. inversion Hf; auto.
    + apply IH. auto.
Qed.

(** ** all nested types *)
Inductive sty : Type :=
| SInt (t : cint)          (* int, long, long long and unsigned *)
| SPod (n : nat)           (* bool, char, short, wchar_t, float, double: n bytes *)
| SStr                     (* std::string *)
| SSeq (e : sty)           (* std::vector / std::list *)
| SSet (e : sty)           (* std::set *)
| SMap (k v : sty).        (* std::map *)

Fixpoint den (s : sty) : Type :=
  match s with
  | SInt _ | SPod _ => Z
  | SStr => list Z
  | SSeq e | SSet e => list (den e)
  | SMap k v => list (den k * den v)
  end.

Fixpoint lex {A} (cmp : A -> A -> comparison) (a b : list A) : comparison :=
  match a, b with
  | [], [] => Eq
  | [], _ => Lt
  | _, [] => Gt
  | x :: a', y :: b' => match cmp x y with Eq => lex cmp a' b' | c => c end
  end.
Definition pair_cmp {A B} (ca : A -> A -> comparison) (cb : B -> B -> comparison) (p q : A * B) : comparison :=
  match ca (fst p) (fst q) with Eq => cb (snd p) (snd q) | c => c end.

(** std::less: numeric, lexicographic *)
Fixpoint cmp (s : sty) : den s -> den s -> comparison :=
  match s with
  | SInt _ | SPod _ => Z.compare
  | SStr => lex Z.compare
  | SSeq e | SSet e => lex (cmp e)
  | SMap k v => lex (pair_cmp (cmp k) (cmp v))
  end.
Definition ltb {A} (c : A -> A -> comparison) (x y : A) : bool := match c x y with Lt => true | _ => false end.

Section Codecs.
Variable little : bool.
Variable size_t : cint.
Fixpoint codec_of (s : sty) : codec (den s) :=
  match s with
  | SInt t => codec_int little t
  | SPod n => codec_pod little n
  | SStr => codec_string little size_t
  | SSeq e => codec_seq little size_t (codec_of e)
  | SSet e => codec_set little size_t (ltb (cmp e)) (codec_of e)
  | SMap k v => codec_map little size_t (ltb (cmp k)) (codec_of k) (codec_of v)
  end.

(** values that exist as C++ objects: scalars in range, sizes fit size_t, sets and maps ordered by key *)
Fixpoint valid (s : sty) : den s -> Prop :=
  match s with
  | SInt t => fun x => cint_ok t /\ in_range t x
  | SPod n => fun x => 0 <= x < 256 ^ Z.of_nat n
  | SStr => fun l => fits size_t (zlen l)
  | SSeq e => fun l => Forall (valid e) l /\ fits size_t (zlen l)
  | SSet e => fun l => Forall (valid e) l /\ fits size_t (zlen l) /\ sorted_by (ltb (cmp e)) l
  | SMap k v => fun l => Forall (fun p => valid k (fst p) /\ valid v (snd p)) l /\ fits size_t (zlen l)
                         /\ sorted_by (fun p q => ltb (cmp k) (fst p) (fst q)) l
  end.
End Codecs.

Record good_cmp {A} (c : A -> A -> comparison) : Prop := {
  gc_eq : forall x y, c x y = Eq <-> x = y;
  gc_trans : forall x y z, c x y = Lt -> c y z = Lt -> c x z = Lt
}.
Lemma gc_order {A} (c : A -> A -> comparison) : good_cmp c -> strict_order (ltb c).
Proof.
  intros G. split.
  - intros x. unfold ltb. destruct (gc_eq _ G x x) as [_ E]. rewrite E; auto.
  - unfold ltb. intros x y z H1 H2.
    destruct (c x y) eqn:E1; try discriminate. destruct (c y z) eqn:E2; try discriminate.
    rewrite (gc_trans _ G _ _ _ E1 E2). auto.
Qed.
Lemma gc_Z : good_cmp Z.compare.
Proof.
  split; [apply Z.compare_eq_iff|]. intros x y z. rewrite !Z.compare_lt_iff. lia.
Qed.
Lemma gc_lex {A} (c : A -> A -> comparison) : good_cmp c -> good_cmp (lex c).
Proof.
  intros G. split.
  - induction x as [|a x IH]; intros [|b y]; simpl; split; intros H; try discriminate; auto.
    + destruct (c a b) eqn:E; try discriminate. apply (gc_eq _ G) in E. apply IH in H. congruence.
    + injection H as -> ->. destruct (gc_eq _ G b b) as [_ E]. rewrite E by auto. apply IH. auto.
  - induction x as [|a x IH]; intros [|b y] [|d z]; simpl; intros H1 H2; try discriminate; auto.
    destruct (c a b) eqn:E1; try discriminate.
    + apply (gc_eq _ G) in E1. subst b. destruct (c a d) eqn:E2; try discriminate; auto. eapply IH; eauto.
    + destruct (c b d) eqn:E2; try discriminate.
      * apply (gc_eq _ G) in E2. subst d. rewrite E1. auto.
      * rewrite (gc_trans _ G _ _ _ E1 E2). auto.
Qed.
Lemma gc_pair {A B} (ca : A -> A -> comparison) (cb : B -> B -> comparison) : good_cmp ca -> good_cmp cb -> good_cmp (pair_cmp ca cb).
Proof.
  intros Ga Gb. split.
  - intros [a b] [a' b']. unfold pair_cmp. cbn [fst snd]. split; intros H.
    + destruct (ca a a') eqn:E; try discriminate. apply (gc_eq _ Ga) in E. apply (gc_eq _ Gb) in H. congruence.
    + injection H as -> ->. destruct (gc_eq _ Ga a' a') as [_ E]. rewrite E by auto. apply (gc_eq _ Gb). auto.
  - intros [a b] [a' b'] [a2 b2]. unfold pair_cmp. cbn [fst snd]. intros H1 H2.
    destruct (ca a a') eqn:E1; try discriminate.
    + apply (gc_eq _ Ga) in E1. subst a'. destruct (ca a a2) eqn:E2; try discriminate; auto. eapply (gc_trans _ Gb); eauto.
    + destruct (ca a' a2) eqn:E2; try discriminate.
      * apply (gc_eq _ Ga) in E2. subst a2. rewrite E1. auto.
      * rewrite (gc_trans _ Ga _ _ _ E1 E2). auto.
Qed.
Lemma gc_cmp s : good_cmp (cmp s).
Proof.
  induction s; cbn [cmp]; [apply gc_Z|apply gc_Z|apply gc_lex, gc_Z|apply gc_lex; auto|apply gc_lex; auto|apply gc_lex, gc_pair; auto].
Qed.

Lemma so_fst {A B} (l : A -> A -> bool) : strict_order l -> strict_order (fun p q : A * B => l (fst p) (fst q)).
Proof.
  intros O. split; [intros [x ?]; apply (so_irrefl _ O)|]. intros [x ?] [y ?] [z ?]. apply (so_trans _ O).
Qed.

Lemma round_trip_all little size_t (Hs : cint_ok size_t /\ c_signed size_t = false) s :
  round_trip (codec_of little size_t s) (valid size_t s).
Proof.
  induction s; cbn [codec_of valid].
  - intros x [Ho Hx]. apply (rt_int little t Ho x Hx).
  - apply rt_pod.
  - apply rt_string; auto.
  - intros l Hl. destruct (rt_seq_into little size_t Hs _ _ IHs l Hl) as (enc & S & L). exists enc. split; auto.
  - intros l (Hv & Hf & Hsrt). destruct (set_into little size_t Hs _ (insert_by (ltb (cmp s))) _ IHs l (conj Hv Hf)) as (enc & S & L).
    exists enc. split; auto. intros rest sched. destruct (L [] rest sched) as (s' & E). exists s'.
    rewrite fold_insert_sorted in E; [exact E| |auto]. apply gc_order, gc_cmp.
  - intros l (Hv & Hf & Hsrt).
    destruct (set_into little size_t Hs _ (insert_by (fun p q : den s1 * den s2 => ltb (cmp s1) (fst p) (fst q))) _
       (rt_pair _ _ _ _ IHs1 IHs2) l (conj Hv Hf)) as (enc & S & L).
    exists enc. split; auto. intros rest sched. destruct (L [] rest sched) as (s' & E). exists s'.
    rewrite fold_insert_sorted in E; [exact E| |auto]. apply (so_fst (B := den s2)). apply gc_order, gc_cmp.
Qed.

(** C10: any nesting of strings, vectors/lists, sets and maps: save, then load into a fresh object *)
Theorem C10_round_trip : forall little size_t s x,
  cint_ok size_t -> c_signed size_t = false -> valid size_t s x ->
  exists enc, c_save (codec_of little size_t s) x = Ok enc /\
    forall rest sched, exists sched',
      c_load (codec_of little size_t s) (c_default (codec_of little size_t s)) (mk_is (enc ++ rest) sched)
      = Ok (x, mk_is rest sched').
Proof. intros little size_t s x Ho Hu Hv. apply round_trip_all; auto. Qed.

(** a C string is saved as the std::string of its characters, and loads into a std::string, whatever that held *)
Theorem C10_c_string : forall little size_t s behind, cint_ok size_t -> c_signed size_t = false -> fits size_t (zlen s) -> ~ In 0 s ->
  exists enc, save_cstr little size_t (s ++ 0 :: behind) = Ok enc /\ c_save (codec_of little size_t SStr) s = Ok enc /\
    forall old rest sched, exists sched', c_load (codec_of little size_t SStr) old (mk_is (enc ++ rest) sched) = Ok (s, mk_is rest sched').
Proof.
  intros little size_t s behind Ho Hu Hv N. destruct (C10_round_trip little size_t SStr s Ho Hu Hv) as (enc & S & L). exists enc. split; [|split; [exact S|intros old; exact L]].
  assert (E : strlen (s ++ 0 :: behind) = Ok (zlen s)).
  { clear - N. induction s as [|c s IH]; [reflexivity|]. cbn [app strlen]. destruct (Z.eqb_spec c 0) as [->|]; [exfalso; apply N; now left|].
    rewrite IH by (intros H; apply N; now right). cbn [bind]. now rewrite zlen_cons. }
  unfold save_cstr. rewrite E. cbn [bind]. cbn [codec_of codec_string c_save] in S. destruct (saveVariableInt little size_t (zlen s)) as [h| | |]; cbn [bind] in *; try discriminate.
  rewrite <- S. f_equal. destruct (Z.ltb_spec 0 (zlen s)) as [P|P].
  - f_equal. unfold zlen. rewrite Nat2Z.id, firstn_app, Nat.sub_diag, firstn_all. cbn [firstn]. apply app_nil_r.
  - destruct s; [symmetry; apply app_nil_r|]. rewrite zlen_cons in P. pose proof (zlen_nonneg s). lia.
Qed.
Example C10_c_string_case : save_cstr true (mk_cint 8 false) [97; 98; 99; 0; 7] = c_save (codec_of true (mk_cint 8 false) SStr) [97; 98; 99] /\ save_cstr true (mk_cint 8 false) [97; 98; 99] = UB.
Proof. split; reflexivity. Qed.

(** a sequence of objects of arbitrary types, saved and loaded in the same order *)
Fixpoint save_many little size_t (l : list {s : sty & den s}) : res (list Z) :=
  match l with
  | [] => Ok []
  | existT _ s x :: r => let! a := c_save (codec_of little size_t s) x in let! b := save_many little size_t r in Ok (a ++ b)
  end.
Fixpoint load_many little size_t (ts : list sty) (is : istream) : res (list {s : sty & den s} * istream) :=
  match ts with
  | [] => Ok ([], is)
  | s :: r => let! (x, is) := c_load (codec_of little size_t s) (c_default (codec_of little size_t s)) is in
              let! (xs, is) := load_many little size_t r is in Ok (existT den s x :: xs, is)
  end.
Theorem C10_sequence : forall little size_t (l : list {s : sty & den s}),
  cint_ok size_t -> c_signed size_t = false -> Forall (fun o => valid size_t (projT1 o) (projT2 o)) l ->
  exists enc, save_many little size_t l = Ok enc /\
    forall rest sched, exists sched',
      load_many little size_t (map (@projT1 _ _) l) (mk_is (enc ++ rest) sched) = Ok (l, mk_is rest sched').
Proof.
  intros little size_t l Ho Hu. induction 1 as [|[s x] l Hx Hl (e2 & S2 & L2)].
  - exists []. simpl. eauto.
  - destruct (C10_round_trip little size_t s x Ho Hu Hx) as (e1 & S1 & L1).
    cbn [save_many]. rewrite S1, S2. cbn [bind]. eexists. split; [reflexivity|].
    intros rest sched. cbn [map projT1 load_many]. rewrite <- app_assoc.
    destruct (L1 (e2 ++ rest) sched) as (s1 & E1). rewrite E1. cbn [bind].
    destruct (L2 rest s1) as (s2 & E2). rewrite E2. cbn [bind]. eauto.
Qed.

(** loading a vector or list replaces the old content *)
Theorem C10_seq_replaces : forall little size_t e l,
  cint_ok size_t -> c_signed size_t = false -> valid size_t (SSeq e) l ->
  exists enc, c_save (codec_of little size_t (SSeq e)) l = Ok enc /\
    forall old rest sched, exists sched',
      c_load (codec_of little size_t (SSeq e)) old (mk_is (enc ++ rest) sched) = Ok (l, mk_is rest sched').
Proof.
  intros little size_t e l Ho Hu Hv. apply (rt_seq_into little size_t (conj Ho Hu) _ (valid size_t e)); auto.
  apply round_trip_all; auto.
Qed.

(** insertion into a sorted list *)
Lemma in_insert {A} (lt : A -> A -> bool) (O : strict_order lt) x l :
  sorted_by lt l -> forall z, In z (insert_by lt x l) <->
    In z l \/ (z = x /\ forall y, In y l -> lt x y = true \/ lt y x = true).
Proof.
  induction 1 as [|y l Hs IH Hf]; intros z.
  - simpl. split; [intros [H|[]]; right; split; auto; intros _ []|intros [[]|[-> _]]; auto].
  - cbn [insert_by]. destruct (lt x y) eqn:E1.
    + simpl. split.
      * intros [<-|[<-|H]]; auto. right. split; auto. intros w [<-|Hw]; auto. left.
        rewrite Forall_forall in Hf. eapply (so_trans _ O); eauto.
      * intros [[<-|H]|[-> _]]; auto.
    + destruct (lt y x) eqn:E2.
      * simpl. rewrite IH. split.
        -- intros [<-|[H|[-> H]]]; auto. right. split; auto. intros w [<-|Hw]; auto.
        -- intros [[<-|H]|[-> H]]; auto. right. right. split; auto.
      * split; [intros H; auto|]. intros [H|[-> H]]; auto. exfalso. destruct (H y); [left; auto| |]; congruence.
Qed.
Lemma insert_sorted {A} (lt : A -> A -> bool) (O : strict_order lt) x l : sorted_by lt l -> sorted_by lt (insert_by lt x l).
Proof.
  intros Hs. pose proof (in_insert lt O x) as I. induction Hs as [|y l Hs IH Hf].
  - repeat constructor.
  - cbn [insert_by]. destruct (lt x y) eqn:E1.
    + constructor; [constructor; auto|]. constructor; auto. rewrite Forall_forall in *. intros w Hw. eapply (so_trans _ O); eauto.
    + destruct (lt y x) eqn:E2; [|constructor; auto].
      constructor; auto. rewrite Forall_forall in *. intros w Hw. apply (I l Hs) in Hw as [Hw|[-> _]]; auto.
Qed.

Lemma sorted_lookup_unique {K V} (c : K -> K -> comparison) (G : good_cmp c) (l : list (K * V)) k v v' :
  sorted_by (fun p q => ltb c (fst p) (fst q)) l -> In (k, v) l -> In (k, v') l -> v = v'.
Proof.
  pose proof (so_irrefl _ (gc_order _ G)) as Irr.
  induction 1 as [|y l Hs IH Hf]; [intros []|]. rewrite Forall_forall in Hf. simpl. intros [->|H1] [H2|H2].
  - congruence.
  - specialize (Hf _ H2). simpl in Hf. congruence.
  - subst y. specialize (Hf _ H1). simpl in Hf. congruence.
  - auto.
Qed.

Lemma fold_insert_map {K V} (c : K -> K -> comparison) (G : good_cmp c)
  (Gt : forall x y, c x y <> Eq -> c x y = Lt \/ c y x = Lt) :
  forall (l old : list (K * V)), sorted_by (fun p q => ltb c (fst p) (fst q)) l ->
  sorted_by (fun p q => ltb c (fst p) (fst q)) old ->
  let r := fold_left (fun a x => insert_by (fun p q => ltb c (fst p) (fst q)) x a) l old in
  sorted_by (fun p q => ltb c (fst p) (fst q)) r /\
  forall k v, In (k, v) r <-> In (k, v) old \/ (In (k, v) l /\ ~ exists w, In (k, w) old).
Proof.
  set (lt := fun p q : K * V => ltb c (fst p) (fst q)).
  assert (O: strict_order lt) by (apply (so_fst (B := V)), gc_order; auto).
  induction l as [|[k0 v0] l IH]; intros old Hl Ho; cbn [fold_left].
  - split; auto. intros k v. simpl. tauto.
  - inversion Hl as [|? ? Hl' Hf]; subst. rewrite Forall_forall in Hf.
    destruct (IH (insert_by lt (k0, v0) old) Hl' (insert_sorted lt O _ _ Ho)) as [IS II]. split; auto.
    intros k v. rewrite II, (in_insert lt O) by auto.
    assert (EX: (forall y, In y old -> lt (k0, v0) y = true \/ lt y (k0, v0) = true) <-> ~ exists w, In (k0, w) old).
    { split.
      - intros H [w Hw]. destruct (H _ Hw) as [E|E]; unfold lt in E; simpl in E; rewrite (so_irrefl _ (gc_order _ G)) in E; discriminate.
      - intros H [k1 w1] Hy. unfold lt, ltb. simpl. destruct (c k0 k1) eqn:E; auto.
        + apply (gc_eq _ G) in E. subst. exfalso. eauto.
        + assert (E3: c k0 k1 <> Eq) by congruence. destruct (Gt k0 k1 E3) as [E2|E2]; [congruence|]. rewrite E2. auto. }
    assert (NK: k = k0 -> ~ In (k, v) l).
    { intros -> H. specialize (Hf _ H). unfold lt in Hf. simpl in Hf. rewrite (so_irrefl _ (gc_order _ G)) in Hf. discriminate. }
    split.
    + intros [[H|[H H']]|[H H']].
      * auto.
      * injection H as -> ->. right. split; [left; auto|]. apply EX; auto.
      * right. split; [right; auto|]. intros [w Hw]. apply H'. exists w. apply (in_insert lt O); auto.
    + intros [H|[[H|H] H']]; auto.
      * injection H as <- <-. left. right. split; auto. apply EX; auto.
      * right. split; auto. intros [w Hw]. apply (in_insert lt O) in Hw as [Hw|[Hw _]]; auto; [eauto|].
        injection Hw as -> ->. apply NK; auto.
Qed.

Lemma cmp_total s : forall x y, cmp s x y <> Eq -> cmp s x y = Lt \/ cmp s y x = Lt.
Proof.
  assert (Zt: forall x y, Z.compare x y <> Eq -> Z.compare x y = Lt \/ Z.compare y x = Lt).
  { intros x y. rewrite !Z.compare_lt_iff, Z.compare_eq_iff. lia. }
  assert (Lt: forall A (c : A -> A -> comparison), good_cmp c -> (forall x y, c x y <> Eq -> c x y = Lt \/ c y x = Lt) ->
     forall x y, lex c x y <> Eq -> lex c x y = Lt \/ lex c y x = Lt).
  { intros A c G H. induction x as [|a x IH]; intros [|b y] Hn; simpl in *; auto; try congruence.
    destruct (c a b) eqn:E; auto.
    - apply (gc_eq _ G) in E. subst. destruct (gc_eq _ G b b) as [_ E]. rewrite E; auto.
    - destruct (H a b) as [E2|E2]; try congruence. rewrite E2. auto. }
  assert (Pt: forall A B (ca : A -> A -> comparison) (cb : B -> B -> comparison), good_cmp ca -> good_cmp cb ->
     (forall x y, ca x y <> Eq -> ca x y = Datatypes.Lt \/ ca y x = Datatypes.Lt) ->
     (forall x y, cb x y <> Eq -> cb x y = Datatypes.Lt \/ cb y x = Datatypes.Lt) ->
     forall x y, pair_cmp ca cb x y <> Eq -> pair_cmp ca cb x y = Datatypes.Lt \/ pair_cmp ca cb y x = Datatypes.Lt).
  { intros A B ca cb Ga Gb Ha Hb [a b] [a' b']. unfold pair_cmp. simpl. intros Hn.
    destruct (ca a a') eqn:E; auto.
    - apply (gc_eq _ Ga) in E. subst. destruct (gc_eq _ Ga a' a') as [_ E]. rewrite E; auto.
    - destruct (Ha a a') as [E2|E2]; try congruence. rewrite E2. auto. }
  induction s; cbn [cmp]; [apply Zt|apply Zt|apply Lt; [apply gc_Z|apply Zt]|apply Lt; [apply gc_cmp|auto]|apply Lt; [apply gc_cmp|auto]|].
  apply Lt; [apply gc_pair; apply gc_cmp|]. apply Pt; auto using gc_cmp.
Qed.

(** loading a map into a nonempty map merges: old keys keep their old values *)
Theorem C10_map_merges : forall little size_t k v m,
  cint_ok size_t -> c_signed size_t = false -> valid size_t (SMap k v) m ->
  exists enc, c_save (codec_of little size_t (SMap k v)) m = Ok enc /\
    forall old rest sched, sorted_by (fun p q => ltb (cmp k) (fst p) (fst q)) old -> exists r sched',
      c_load (codec_of little size_t (SMap k v)) old (mk_is (enc ++ rest) sched) = Ok (r, mk_is rest sched') /\
      (forall x y, In (x, y) r <-> In (x, y) old \/ (In (x, y) m /\ ~ exists w, In (x, w) old)).
Proof.
  intros little size_t k v m Ho Hu (Hv & Hf & Hs).
  destruct (set_into little size_t (conj Ho Hu) _ (insert_by (fun p q : den k * den v => ltb (cmp k) (fst p) (fst q))) _
       (rt_pair _ _ _ _ (round_trip_all little size_t (conj Ho Hu) k) (round_trip_all little size_t (conj Ho Hu) v)) m (conj Hv Hf)) as (enc & S & L).
  exists enc. split; [exact S|]. intros old rest sched Hold. destruct (L old rest sched) as (s' & E).
  destruct (fold_insert_map (cmp k) (gc_cmp k) (cmp_total k) m old Hs Hold) as [_ I].
  exists (fold_left (fun a x => insert_by (fun p q => ltb (cmp k) (fst p) (fst q)) x a) m old), s'. split; [exact E|exact I].
Qed.

(** loading a set into a nonempty set gives the union *)
Theorem C10_set_merges : forall little size_t e m,
  cint_ok size_t -> c_signed size_t = false -> valid size_t (SSet e) m ->
  exists enc, c_save (codec_of little size_t (SSet e)) m = Ok enc /\
    forall old rest sched, sorted_by (ltb (cmp e)) old -> exists r sched',
      c_load (codec_of little size_t (SSet e)) old (mk_is (enc ++ rest) sched) = Ok (r, mk_is rest sched') /\
      sorted_by (ltb (cmp e)) r /\ (forall x, In x r <-> In x old \/ In x m).
Proof.
  intros little size_t e m Ho Hu (Hv & Hf & Hs).
  destruct (set_into little size_t (conj Ho Hu) _ (insert_by (ltb (cmp e))) _ (round_trip_all little size_t (conj Ho Hu) e) m (conj Hv Hf)) as (enc & S & L).
  exists enc. split; [exact S|]. intros old rest sched Hold. destruct (L old rest sched) as (s' & E).
  exists (fold_left (fun a x => insert_by (ltb (cmp e)) x a) m old), s'. split; [exact E|].
  clear - Hold. revert old Hold. pose proof (gc_order _ (gc_cmp e)) as O.
  induction m as [|x m IH]; intros old Hold; cbn [fold_left]; [split; auto; simpl; tauto|].
  destruct (IH (insert_by (ltb (cmp e)) x old)) as [I1 I2]; [apply insert_sorted; auto|]. split; auto.
  intros z. rewrite I2, (in_insert _ O) by auto. simpl. split.
  - intros [[H|[-> _]]|H]; auto.
  - intros [H|[<-|H]]; auto.
    destruct (existsb (fun y => match cmp e x y with Eq => true | _ => false end) old) eqn:Ex.
    + apply existsb_exists in Ex as (y & Hy & Exy). destruct (cmp e x y) eqn:Ec; try discriminate.
      apply (gc_eq _ (gc_cmp e)) in Ec. subst. auto.
    + left. right. split; auto. intros y Hy.
      destruct (cmp e x y) eqn:Ec.
      * exfalso. assert (existsb (fun y => match cmp e x y with Eq => true | _ => false end) old = true); [|congruence].
        apply existsb_exists. exists y. rewrite Ec. auto.
      * left. unfold ltb. rewrite Ec. auto.
      * destruct (cmp_total e x y) as [E2|E2]; try congruence. right. unfold ltb. rewrite E2. auto.
Qed.

(** unordered_map: the loaded table has the same entries, whatever the bucket placement of either table *)
Theorem C10_unordered_map : forall little size_t k v place (m : list (den k * den v)) eqb,
  cint_ok size_t -> c_signed size_t = false ->
  (forall a b, eqb a b = true <-> a = b) ->
  Forall (fun p => valid size_t k (fst p) /\ valid size_t v (snd p)) m -> fits size_t (zlen m) -> NoDup (map fst m) ->
  let c := codec_umap little size_t eqb place (codec_of little size_t k) (codec_of little size_t v) in
  exists enc, c_save c m = Ok enc /\
    forall rest sched, exists r sched', c_load c [] (mk_is (enc ++ rest) sched) = Ok (r, mk_is rest sched') /\ Permutation r m.
Proof.
  intros little size_t k v place m eqb Ho Hu He Hv Hf Hn c.
  destruct (set_into little size_t (conj Ho Hu) _ (insert_unordered eqb place) _
       (rt_pair _ _ _ _ (round_trip_all little size_t (conj Ho Hu) k) (round_trip_all little size_t (conj Ho Hu) v)) m (conj Hv Hf)) as (enc & S & L).
  exists enc. split; [exact S|]. intros rest sched. destruct (L [] rest sched) as (s' & E).
  eexists. exists s'. split; [exact E|]. clear - He Hn.
  enough (G: forall acc, NoDup (map fst m) -> (forall x, In x (map fst m) -> In x (map fst acc) -> False) ->
     Permutation (fold_left (fun a x => insert_unordered eqb place x a) m acc) (acc ++ m)).
  { apply (G []); auto. }
  clear Hn. induction m as [|[x y] m IH]; intros acc Hn Hd; cbn [fold_left].
  - rewrite app_nil_r. auto.
  - assert (Ei: insert_unordered eqb place (x, y) acc = insert_at (place (x, y) acc) (x, y) acc).
    { unfold insert_unordered. destruct (existsb _ acc) eqn:Ex; auto. exfalso.
      apply existsb_exists in Ex as ([x' y'] & Hin & Heq). simpl in Heq. apply He in Heq. subst x'.
      apply (Hd x); [left; auto|]. apply (in_map fst) in Hin. auto. }
    assert (P: Permutation (insert_at (place (x, y) acc) (x, y) acc) ((x, y) :: acc)).
    { generalize (place (x, y) acc). intros n. unfold insert_at. rewrite <- (firstn_skipn n acc) at 3. symmetry. apply Permutation_middle. }
    rewrite Ei. inversion Hn as [|? ? Hx Hn']; subst.
    rewrite IH; auto.
    + rewrite P. simpl. apply Permutation_middle.
    + intros z Hz Hz2. apply (Permutation_in z (Permutation_map fst P)) in Hz2. simpl in Hz2. destruct Hz2 as [<-|Hz2].
      * apply Hx; auto.
      * apply (Hd z); [right; auto|auto].
Qed.

Definition ulong := mk_cint 8 false.
Example C10_nonvacuous :
  valid ulong (SMap SStr (SSeq (SInt (mk_cint 4 true)))) [([97;98], [1;-2;300]); ([99], [])] /\
  c_save (codec_of true ulong (SMap SStr (SSeq (SInt (mk_cint 4 true))))) [([97;98], [1;-2;300]); ([99], [])]
   = Ok [2; 2;97;98; 3;1;254;129;44;1; 1;99; 0].
Proof.
  split; [|reflexivity]. cbn [valid]. repeat split; repeat constructor; simpl; unfold fits, cint_ok; simpl; auto;
  repeat split; try (vm_compute; congruence); try reflexivity.
Qed.

Print Assumptions C09_variable_int.
Print Assumptions C10_round_trip.
Print Assumptions C10_c_string.
Print Assumptions C10_sequence.
Print Assumptions C10_map_merges.
Print Assumptions C10_unordered_map.
