(** Property C109: the builds of Sha256 and Sha512 on OpenSSL compute what the built-in one computes, and own their contexts. *)
Require Import Verif.Common Verif.Text Verif.ConfigModel Verif.ItoaModel Verif.ShaModel Verif.ShaSpec Verif.ShaProof Verif.ShaProof2 Verif.ShaProps Verif.EvpModel.
Ltac Zify.zify_post_hook ::= idtac.

(** ** Specification *)
(** an object: its algorithm and the bytes given since the last clear; None: digest has been called since *)
Definition sobj := (alg * option (list Z))%type.
Definition hash (a : alg) : list Z -> list Z := match a with A256 => SHA256 | A512 => SHA512 end.
Definition hlen (a : alg) : nat := match a with A256 => 32 | A512 => 64 end.
Definition short (m : list Z) : bool := zlen m <? 2 ^ 61.
(** what a call gives; None: not a use the property is about (an object that does not exist, an update or digest after digest without
    clear in between, more than 2^61 - 1 bytes) *)
Definition call (os : list (option sobj)) (op : dop) : option (list (option sobj) * dres) :=
  match op with
  | DNew a => Some (os ++ [Some (a, Some [])], RNone)
  | DCopy i => match nth_error os i with Some (Some o) => Some (os ++ [Some o], RNone) | _ => None end
  | DClear i => match nth_error os i with Some (Some (a, _)) => Some (upd os i (Some (a, Some [])), RNone) | _ => None end
  | DUpdate i b => match nth_error os i with
    | Some (Some (a, Some m)) => if short (m ++ b) then Some (upd os i (Some (a, Some (m ++ b))), RNone) else None
    | _ => None end
  | DDigest i md b => match nth_error os i with
    | Some (Some (a, st)) =>
      if (length md <? hlen a)%nat then Some (os, RBuf md 0)
      else match st with
           | Some m => if short (m ++ b) then Some (upd os i (Some (a, None)), RBuf (hash a (m ++ b) ++ skipn (hlen a) md) (Z.of_nat (hlen a))) else None
           | None => None end
    | _ => None end
  | DDigestStr i b => match nth_error os i with
    | Some (Some (a, Some m)) => if short (m ++ b) then Some (upd os i (Some (a, None)), RStr (hash a (m ++ b))) else None
    | _ => None end
  | DDelete i => match nth_error os i with Some (Some _) => Some (upd os i None, RNone) | _ => None end
  end.
Fixpoint calls (os : list (option sobj)) (ops : list dop) : option (list dres) :=
  match ops with
  | [] => Some []
  | op :: r => match call os op with
    | Some (os, x) => match calls os r with Some xs => Some (x :: xs) | None => None end
    | None => None end
  end.
Definition op_bytes (op : dop) : Prop := match op with DUpdate _ b | DDigest _ _ b | DDigestStr _ b => bytes b | _ => True end.
Definition no_copy (op : dop) : Prop := match op with DCopy _ => False | _ => True end.
Definition is_new (op : dop) : bool := match op with DNew _ => true | _ => false end.

(** ** Proof *)
Lemma SHA512_shape m : length (SHA512 m) = 64%nat /\ bytes (SHA512 m).
Proof. exact (hash_msg_shape 64 128 16 _ _ 80 sha512_H0 8 m (sha2_round_length 64 S0_512 S1_512 sha512_K) eq_refl). Qed.
Lemma openssl_hash a m : openssl a m = hash a m.
Proof. destruct a; reflexivity. Qed.
Lemma openssl_length a m : length (openssl a m) = hlen a.
Proof. destruct a; [apply SHA256_shape|apply SHA512_shape]. Qed.
Lemma MD_SIZE_hlen a : MD_SIZE a = Z.of_nat (hlen a).
Proof. destruct a; reflexivity. Qed.
Lemma memcpy_hash a m md : (hlen a <= length md)%nat -> memcpy_at md 0 (openssl a m) = Ok (openssl a m ++ skipn (hlen a) md).
Proof.
  intros L. pose proof (openssl_length a m) as LO. rewrite <- (firstn_skipn (hlen a) md) at 1.
  pose proof (memcpy_exact [] (firstn (hlen a) md) (skipn (hlen a) md) (openssl a m) 0 eq_refl) as E. cbn [app] in E. apply E. rewrite firstn_length. lia.
Qed.
Lemma size_test a (md : list Z) : (zlen md <? MD_SIZE a) = (length md <? hlen a)%nat.
Proof. rewrite MD_SIZE_hlen. unfold zlen. destruct (Nat.ltb_spec (length md) (hlen a)); lia. Qed.
Lemma upd_same {A} (l : list A) i x : nth_error l i = Some x -> upd l i x = l.
Proof. revert i; induction l as [|y l IH]; intros [|i] H; cbn in *; try discriminate; [congruence|]. now rewrite IH. Qed.
Lemma upd_map {A B} (f : A -> B) l i x : upd (map f l) i (f x) = map f (upd l i x).
Proof. revert i; induction l as [|y l IH]; intros [|i]; cbn; auto. now rewrite IH. Qed.
Lemma upd_snoc {A} (l : list A) x y : upd (l ++ [x]) (length l) y = l ++ [y].
Proof. induction l; cbn; congruence. Qed.
Lemma upd_again {A} (l : list A) i x y : upd (upd l i x) i y = upd l i y.
Proof. revert i; induction l as [|z l IH]; intros [|i]; cbn; auto. now rewrite IH. Qed.

(** the context of an object *)
Definition ectx (o : sobj) : evp := let (a, st) := o in match st with Some m => EOn a m | None => EOver end.
Definition heap_of (os : list (option sobj)) : list (option evp) := map (option_map ectx) os.
Definition ptrs (os : list (option sobj)) (ps : list (option hobj)) : Prop :=
  length ps = length os /\ forall i, match nth_error os i with
    | Some (Some (a, _)) => nth_error ps i = Some (Some (mk_hobj a i (Some a)))
    | Some None => nth_error ps i = Some None
    | None => True end.
Lemma get_heap os i o : nth_error os i = Some (Some o) -> get (heap_of os) i = Ok (ectx o).
Proof. intros H. unfold get, heap_of. now rewrite nth_error_map, H. Qed.
Lemma get_ptr os ps i a st : ptrs os ps -> nth_error os i = Some (Some (a, st)) -> get ps i = Ok (mk_hobj a i (Some a)).
Proof. intros [_ P] H. specialize (P i). rewrite H in P. unfold get. now rewrite P. Qed.
Lemma nth_lt {A} (l : list A) i x : nth_error l i = Some x -> (i < length l)%nat.
Proof. intros H. apply nth_error_Some. congruence. Qed.
Lemma ptrs_set os ps i a st st' : ptrs os ps -> nth_error os i = Some (Some (a, st)) -> ptrs (upd os i (Some (a, st'))) ps.
Proof.
  intros [L P] H. split; [now rewrite upd_length|]. intros j. destruct (Nat.eq_dec i j) as [->|N].
  - rewrite nth_error_upd_eq by (eapply nth_lt; eauto). specialize (P j). now rewrite H in P.
  - rewrite nth_error_upd_ne by auto. apply P.
Qed.
Lemma ptrs_del os ps i o : ptrs os ps -> nth_error os i = Some o -> ptrs (upd os i None) (upd ps i None).
Proof.
  intros [L P] H. pose proof (nth_lt _ _ _ H). split; [now rewrite !upd_length|]. intros j. destruct (Nat.eq_dec i j) as [->|N].
  - rewrite !nth_error_upd_eq by lia. reflexivity.
  - rewrite !nth_error_upd_ne by auto. apply P.
Qed.
Lemma heap_set os i o : upd (heap_of os) i (Some (ectx o)) = heap_of (upd os i (Some o)).
Proof. unfold heap_of. now rewrite <- upd_map. Qed.
Lemma nh_clear_ok os i a st : nth_error os i = Some (Some (a, st)) ->
  nh_clear (heap_of os) (mk_hobj a i (Some a)) = Ok (heap_of (upd os i (Some (a, Some [])))).
Proof. intros H. unfold nh_clear. cbn [o_ctx o_md]. rewrite (get_heap _ _ _ H). cbn [bind]. now rewrite <- heap_set. Qed.
Lemma nh_update_ok os i a m b : nth_error os i = Some (Some (a, Some m)) ->
  nh_update (heap_of os) (mk_hobj a i (Some a)) b = Ok (heap_of (upd os i (Some (a, Some (m ++ b))))).
Proof. intros H. unfold nh_update. cbn [o_ctx]. rewrite (get_heap _ _ _ H). cbn [bind ectx evp_update]. now rewrite <- heap_set. Qed.
Lemma nh_digest_ok os i a m md b : nth_error os i = Some (Some (a, Some m)) -> (hlen a <= length md)%nat ->
  nh_digest (heap_of os) (mk_hobj a i (Some a)) md b = Ok (hash a (m ++ b) ++ skipn (hlen a) md, Z.of_nat (hlen a), heap_of (upd os i (Some (a, None)))).
Proof.
  intros H L. unfold nh_digest. cbn [o_cls]. rewrite size_test. destruct (Nat.ltb_spec (length md) (hlen a)); [lia|].
  rewrite (nh_update_ok _ _ _ _ _ H). cbn [bind o_ctx]. rewrite (get_heap _ i (a, Some (m ++ b))) by (apply nth_error_upd_eq; eapply nth_lt; eauto).
  cbn [bind ectx evp_final]. rewrite memcpy_hash by auto. cbn [bind]. rewrite openssl_hash, MD_SIZE_hlen.
  change EOver with (ectx (a, None)). now rewrite heap_set, upd_again.
Qed.
Lemma nth_snoc {A} (l : list A) x j : nth_error (l ++ [x]) j = if Nat.eqb j (length l) then Some x else nth_error l j.
Proof.
  destruct (Nat.eqb_spec j (length l)) as [->|N]; [now rewrite nth_error_app2, Nat.sub_diag by lia|].
  destruct (Nat.lt_ge_cases j (length l)); [now rewrite nth_error_app1 by lia|].
  rewrite nth_error_app2 by lia. rewrite (proj2 (nth_error_None l j)) by lia. destruct (j - length l)%nat as [|[|k]] eqn:E; [lia|reflexivity|reflexivity].
Qed.
Lemma zeros_length n : length (repeat 0 n) = n.
Proof. apply repeat_length. Qed.
Lemma evp_call os ps op os' x : ptrs os ps -> no_copy op -> call os op = Some (os', x) ->
  exists ps', evp_step (heap_of os, ps) op = Ok ((heap_of os', ps'), x) /\ ptrs os' ps'.
Proof.
  intros P NC. destruct op as [a|i|i|i b|i md b|i b|i]; cbn [no_copy] in NC; try contradiction; cbn [call].
  - intros E. injection E as <- <-. exists (ps ++ [Some (mk_hobj a (length os) (Some a))]). split.
    + unfold evp_step, nh_new. replace (digestbyname _) with (Some a) by (destruct a; reflexivity).
      unfold nh_clear. cbn [o_ctx o_md]. replace (get (heap_of os ++ [Some ENone]) (length (heap_of os))) with (Ok ENone)
        by (unfold get; now rewrite nth_snoc, Nat.eqb_refl). cbn [bind].
      rewrite upd_snoc. unfold heap_of at 2 3. rewrite map_app, map_length. reflexivity.
    + destruct P as [L P]. split; [rewrite !app_length, L; reflexivity|]. intros j. rewrite !nth_snoc, L.
      destruct (Nat.eqb_spec j (length os)) as [->|N]; [reflexivity|apply P].
  - destruct (nth_error os i) as [[[a st]|]|] eqn:H; try discriminate. intros E. injection E as <- <-. exists ps. cbn [evp_step].
    rewrite (get_ptr _ _ _ _ _ P H). cbn [bind]. rewrite (nh_clear_ok _ _ _ _ H). split; [reflexivity|]. eapply ptrs_set; eauto.
  - destruct (nth_error os i) as [[[a [m|]]|]|] eqn:H; try discriminate. destruct (short (m ++ b)); [|discriminate]. intros E. injection E as <- <-. exists ps. cbn [evp_step].
    rewrite (get_ptr _ _ _ _ _ P H). cbn [bind]. rewrite (nh_update_ok _ _ _ _ _ H). split; [reflexivity|]. eapply ptrs_set; eauto.
  - destruct (nth_error os i) as [[[a st]|]|] eqn:H; try discriminate. destruct (Nat.ltb_spec (length md) (hlen a)) as [L|L].
    + intros E. injection E as <- <-. exists ps. cbn [evp_step]. rewrite (get_ptr _ _ _ _ _ P H). cbn [bind]. unfold nh_digest. cbn [o_cls].
      rewrite size_test. destruct (Nat.ltb_spec (length md) (hlen a)); [|lia]. split; [reflexivity|exact P].
    + destruct st as [m|]; [|discriminate]. destruct (short (m ++ b)); [|discriminate]. intros E. injection E as <- <-. exists ps. cbn [evp_step].
      rewrite (get_ptr _ _ _ _ _ P H). cbn [bind]. rewrite (nh_digest_ok _ _ _ _ _ _ H L). split; [reflexivity|]. eapply ptrs_set; eauto.
  - destruct (nth_error os i) as [[[a [m|]]|]|] eqn:H; try discriminate. destruct (short (m ++ b)); [|discriminate]. intros E. injection E as <- <-. exists ps. cbn [evp_step].
    rewrite (get_ptr _ _ _ _ _ P H). cbn [bind o_cls]. rewrite MD_SIZE_hlen, Nat2Z.id. rewrite (nh_digest_ok _ _ _ _ _ _ H) by (rewrite zeros_length; lia).
    cbn [bind]. rewrite skipn_all2, app_nil_r by (rewrite zeros_length; lia). split; [reflexivity|]. eapply ptrs_set; eauto.
  - destruct (nth_error os i) as [[[a st]|]|] eqn:H; try discriminate. intros E. injection E as <- <-. exists (upd ps i None). cbn [evp_step].
    rewrite (get_ptr _ _ _ _ _ P H). cbn [bind]. unfold nh_free. cbn [o_ctx]. rewrite (get_heap _ _ _ H). cbn [bind]. split; [|eapply ptrs_del; eauto].
    unfold heap_of. now rewrite <- (upd_map (option_map ectx)).
Qed.

Lemma old_call os op os' x : call os op = Some (os', x) -> old_step os op = Ok (os', x).
Proof.
  unfold sobj in *. destruct op as [a|i|i|i b|i md b|i b|i]; cbn [call old_step]; unfold get, sobj, ctx in *.
  - intros E. injection E as <- <-. reflexivity.
  - destruct (nth_error os i) as [[o|]|] eqn:H; try discriminate. intros E. injection E as <- <-. reflexivity.
  - destruct (nth_error os i) as [[[a st]|]|] eqn:H; try discriminate. intros E. injection E as <- <-. reflexivity.
  - destruct (nth_error os i) as [[[a [m|]]|]|] eqn:H; try discriminate. destruct (short (m ++ b)); [|discriminate]. intros E. injection E as <- <-. reflexivity.
  - destruct (nth_error os i) as [[[a st]|]|] eqn:H; try discriminate. cbn [bind]. unfold old_digest. cbn [fst]. rewrite size_test.
    destruct (Nat.ltb_spec (length md) (hlen a)) as [L|L].
    + intros E. injection E as <- <-. cbn [bind]. now rewrite upd_same.
    + destruct st as [m|]; [|discriminate]. destruct (short (m ++ b)); [|discriminate]. intros E. injection E as <- <-.
      cbn [old_update bind]. rewrite memcpy_hash by auto. cbn [bind]. now rewrite openssl_hash, MD_SIZE_hlen.
  - destruct (nth_error os i) as [[[a [m|]]|]|] eqn:H; try discriminate. destruct (short (m ++ b)); [|discriminate]. intros E. injection E as <- <-.
    cbn [bind fst]. unfold old_digest. cbn [fst]. rewrite size_test, MD_SIZE_hlen, Nat2Z.id, zeros_length, Nat.ltb_irrefl. cbn [old_update bind].
    rewrite memcpy_hash by (rewrite zeros_length; lia). cbn [bind]. now rewrite skipn_all2, app_nil_r, openssl_hash by (rewrite zeros_length; lia).
  - destruct (nth_error os i) as [[o|]|] eqn:H; try discriminate. intros E. injection E as <- <-. reflexivity.
Qed.

(** the built-in object that has been given m *)
Definition given (a : alg) (s : sha) (m : list Z) : Prop := match a with A256 => I256 s m | A512 => I512 s m end.
Definition bufn (a : alg) : nat := match a with A256 => 64 | A512 => 128 end.
Definition spent (a : alg) (s : sha) : Prop := length (s_buf s) = bufn a /\ bytes (s_buf s).
Definition rel (o : option sobj) (c : option (alg * sha)) : Prop :=
  match o, c with
  | Some (a, Some m), Some (a', s) => a' = a /\ given a s m
  | Some (a, None), Some (a', s) => a' = a /\ spent a s
  | None, None => True
  | _, _ => False end.
Section Own.
Variables (little : bool) (junk : Z).
Hypothesis Hj : is_byte junk.
Lemma own_new_ok a : given a (own_new junk a) [].
Proof. destruct a; [apply sha256_I0|apply sha512_I0]; try apply repeat_length; apply bytes_repeat; exact Hj. Qed.
Lemma given_spent a s m : given a s m -> spent a s.
Proof. destruct a; intros (bl & r & _ & _ & _ & _ & _ & _ & _ & Lb & Bb & _); split; auto. Qed.
Lemma own_clear_ok a s : spent a s -> given a (own_clear a s) [].
Proof. destruct a; intros [L B]; [apply sha256_I0|apply sha512_I0]; auto. Qed.
Lemma own_update_ok a s m b : given a s m -> bytes b -> exists s', own_update little junk a s b = Ok s' /\ given a s' (m ++ b).
Proof.
  destruct a; intros I B; cbn [own_update given] in *.
  - destruct (sha256_feed little junk [b] s m I) as (s' & E & I2); [constructor; auto|]. cbn [feed concat] in E, I2. rewrite app_nil_r in I2.
    destruct (sha256_update little junk s b) as [s2| | |]; try discriminate. cbn [bind] in E. injection E as ->. eauto.
  - destruct (sha512_feed little junk [b] s m I) as (s' & E & I2); [constructor; auto|]. cbn [feed concat] in E, I2. rewrite app_nil_r in I2.
    destruct (sha512_update little junk s b) as [s2| | |]; try discriminate. cbn [bind] in E. injection E as ->. eauto.
Qed.
Lemma own_digest_ok a s m md b : given a s m -> bytes b -> short (m ++ b) = true -> (hlen a <= length md)%nat ->
  exists s', own_digest little junk a s md b = Ok (hash a (m ++ b) ++ skipn (hlen a) md, Z.of_nat (hlen a), s') /\ spent a s'.
Proof.
  intros I B S L. unfold short in S. apply Z.ltb_lt in S. destruct a; cbn [own_digest given hash hlen] in *.
  - destruct (sha256_digest_ok little junk s m md b I B S) as (s' & L' & B' & E); [unfold zlen; lia|]. exists s'. split; [exact E|split; auto].
  - destruct (sha512_digest_ok little junk s m md b I B S) as (s' & L' & B' & E); [unfold zlen; lia|]. exists s'. split; [exact E|split; auto].
Qed.
Lemma own_small a s md b : (length md < hlen a)%nat -> own_digest little junk a s md b = Ok (md, 0, s).
Proof. intros L. destruct a; cbn [own_digest hlen] in *; unfold sha256_digest, sha512_digest; [destruct (Z.ltb_spec (zlen md) 32)|destruct (Z.ltb_spec (zlen md) 64)]; auto; unfold zlen in *; lia. Qed.
Lemma rel_get os cs i a st : Forall2 rel os cs -> nth_error os i = Some (Some (a, st)) ->
  exists s, nth_error cs i = Some (Some (a, s)) /\ rel (Some (a, st)) (Some (a, s)) /\ spent a s.
Proof.
  intros F. revert i. induction F as [|o c os cs R F IH]; intros [|i]; cbn; try discriminate.
  - intros E. injection E as ->. cbn [rel] in R. destruct c as [[a' s]|]; [|destruct st; contradiction].
    destruct st as [m|]; destruct R as [-> R]; exists s; repeat split; auto; try (eapply given_spent in R; apply R); apply R.
  - apply IH.
Qed.
Lemma rel_upd os cs i o c : Forall2 rel os cs -> rel o c -> Forall2 rel (upd os i o) (upd cs i c).
Proof. intros F R. revert i. induction F; intros [|i]; cbn; constructor; auto. Qed.
Lemma rel_del os cs i o : Forall2 rel os cs -> nth_error os i = Some (Some o) -> exists c, nth_error cs i = Some (Some c).
Proof. intros F H. destruct o as [a st]. destruct (rel_get _ _ _ _ _ F H) as (s & E & _). eauto. Qed.
Lemma own_call os cs op os' x : Forall2 rel os cs -> op_bytes op -> call os op = Some (os', x) ->
  exists cs', own_step little junk cs op = Ok (cs', x) /\ Forall2 rel os' cs'.
Proof.
  intros F B. destruct op as [a|i|i|i b|i md b|i b|i]; cbn [call own_step op_bytes] in *.
  - intros E. injection E as <- <-. eexists. split; [reflexivity|]. apply Forall2_app; auto. repeat constructor. apply own_new_ok.
  - destruct (nth_error os i) as [[[a st]|]|] eqn:H; try discriminate. intros E. injection E as <- <-. destruct (rel_get _ _ _ _ _ F H) as (s & E & R & _).
    unfold get. rewrite E. cbn [bind]. eexists. split; [reflexivity|]. apply Forall2_app; auto.
  - destruct (nth_error os i) as [[[a st]|]|] eqn:H; try discriminate. intros E. injection E as <- <-. destruct (rel_get _ _ _ _ _ F H) as (s & E & _ & R).
    unfold get. rewrite E. cbn [bind]. eexists. split; [reflexivity|]. apply rel_upd; auto. split; [reflexivity|]. now apply own_clear_ok.
  - destruct (nth_error os i) as [[[a [m|]]|]|] eqn:H; try discriminate. destruct (short (m ++ b)); [|discriminate]. intros E. injection E as <- <-.
    destruct (rel_get _ _ _ _ _ F H) as (s & E & [_ R] & _). unfold get. rewrite E. cbn [bind]. destruct (own_update_ok a s m b R B) as (s' & -> & G). cbn [bind].
    eexists. split; [reflexivity|]. apply rel_upd; auto. split; auto.
  - destruct (nth_error os i) as [[[a st]|]|] eqn:H; try discriminate. destruct (rel_get _ _ _ _ _ F H) as (s & E & R & _). unfold get. rewrite E. cbn [bind].
    destruct (Nat.ltb_spec (length md) (hlen a)) as [L|L].
    + intros X. injection X as <- <-. rewrite own_small by auto. cbn [bind]. eexists. split; [reflexivity|]. now rewrite upd_same.
    + destruct st as [m|]; [|discriminate]. destruct (short (m ++ b)) eqn:S; [|discriminate]. intros X. injection X as <- <-. destruct R as [_ R].
      destruct (own_digest_ok a s m md b R B S L) as (s' & -> & G). cbn [bind]. eexists. split; [reflexivity|]. apply rel_upd; auto. split; auto.
  - destruct (nth_error os i) as [[[a [m|]]|]|] eqn:H; try discriminate. destruct (short (m ++ b)) eqn:S; [|discriminate]. intros X. injection X as <- <-.
    destruct (rel_get _ _ _ _ _ F H) as (s & E & [_ R] & _). unfold get. rewrite E. cbn [bind]. rewrite MD_SIZE_hlen, Nat2Z.id.
    destruct (own_digest_ok a s m (repeat 0 (hlen a)) b R B S) as (s' & -> & G); [rewrite zeros_length; lia|]. cbn [bind].
    rewrite skipn_all2, app_nil_r by (rewrite zeros_length; lia). eexists. split; [reflexivity|]. apply rel_upd; auto. split; auto.
  - destruct (nth_error os i) as [[o|]|] eqn:H; try discriminate. intros E. injection E as <- <-. destruct (rel_del _ _ _ _ F H) as (c & E).
    unfold get. rewrite E. cbn [bind]. eexists. split; [reflexivity|]. apply rel_upd; auto.
Qed.
End Own.

(** ** C109: one program, three builds, the same results *)
Theorem C109_same little junk ops rs : is_byte junk -> Forall op_bytes ops -> calls [] ops = Some rs ->
  (exists s, run (own_step little junk) [] ops = Ok (rs, s)) /\
  (exists s, run old_step [] ops = Ok (rs, s)) /\
  (Forall no_copy ops -> exists s, run evp_step ([], []) ops = Ok (rs, s)).
Proof.
  intros Hj B E. split; [|split].
  - assert (G : forall os cs, Forall2 rel os cs -> calls os ops = Some rs -> exists s, run (own_step little junk) cs ops = Ok (rs, s)).
    { clear E. revert rs. induction B as [|op ops Bo B IH]; intros rs os cs F; cbn [calls run].
      - intros E. injection E as <-. eauto.
      - destruct (call os op) as [[os' x]|] eqn:C; [|discriminate]. destruct (calls os' ops) as [xs|] eqn:Cs; [|discriminate]. intros E. injection E as <-.
        destruct (own_call little junk Hj _ _ _ _ _ F Bo C) as (cs' & -> & F'). cbn [bind]. destruct (IH _ _ _ F' Cs) as (s & ->). cbn [bind]. eauto. }
    apply (G [] []); auto.
  - assert (G : forall os : list (option sobj), calls os ops = Some rs -> exists s, run old_step os ops = Ok (rs, s)).
    { clear E B. revert rs. induction ops as [|op ops IH]; intros rs os; cbn [calls run].
      - intros E. injection E as <-. eauto.
      - destruct (call os op) as [[os' x]|] eqn:C; [|discriminate]. destruct (calls os' ops) as [xs|] eqn:Cs; [|discriminate]. intros E. injection E as <-.
        rewrite (old_call _ _ _ _ C). cbn [bind]. destruct (IH _ _ Cs) as (s & ->). cbn [bind]. eauto. }
    exact (G [] E).
  - intros NC. assert (G : forall os ps, ptrs os ps -> calls os ops = Some rs -> exists s, run evp_step (heap_of os, ps) ops = Ok (rs, s)).
    { clear E B. revert rs. induction NC as [|op ops No NC IH]; intros rs os ps P; cbn [calls run].
      - intros E. injection E as <-. eauto.
      - destruct (call os op) as [[os' x]|] eqn:C; [|discriminate]. destruct (calls os' ops) as [xs|] eqn:Cs; [|discriminate]. intros E. injection E as <-.
        destruct (evp_call _ _ _ _ _ P No C) as (ps' & -> & P'). cbn [bind]. destruct (IH _ _ _ P' Cs) as (s & ->). cbn [bind]. eauto. }
    apply (G [] []); auto. split; auto. intros [|i]; exact I.
Qed.
(** ** C109: on EVP_MD_CTX every object has one context, freed (once: a second time is UB) exactly when the object is destroyed *)
Theorem C109_contexts ops rs : Forall no_copy ops -> calls [] ops = Some rs ->
  exists heap ps, run evp_step ([], []) ops = Ok (rs, (heap, ps)) /\ length heap = length (filter is_new ops) /\
    forall i, nth_error heap i = Some None <-> In (DDelete i) ops.
Proof.
  intros NC E. assert (G : forall os ps, ptrs os ps -> calls os ops = Some rs -> exists heap ps', run evp_step (heap_of os, ps) ops = Ok (rs, (heap, ps')) /\
     length heap = (length os + length (filter is_new ops))%nat /\ forall i, nth_error heap i = Some None <-> nth_error os i = Some None \/ In (DDelete i) ops).
  { clear E. revert rs. induction NC as [|op ops No NC IH]; intros rs os ps P; cbn [calls run].
    - intros E. injection E as <-. exists (heap_of os), ps. split; [reflexivity|]. unfold heap_of. rewrite map_length. cbn. split; [lia|]. intros i. rewrite nth_error_map.
      destruct (nth_error os i) as [[o|]|]; cbn; intuition discriminate.
    - destruct (call os op) as [[os' x]|] eqn:C; [|discriminate]. destruct (calls os' ops) as [xs|] eqn:Cs; [|discriminate]. intros E. injection E as <-.
      destruct (evp_call _ _ _ _ _ P No C) as (ps' & -> & P'). cbn [bind]. destruct (IH _ _ _ P' Cs) as (hp & p2 & -> & L & Q). cbn [bind].
      exists hp, p2. split; [reflexivity|]. assert (K : length os' = (length os + (if is_new op then 1 else 0))%nat /\
        forall i, nth_error os' i = Some None <-> nth_error os i = Some None \/ op = DDelete i).
      { clear - C No. destruct op as [a|i|i|i b|i md b|i b|i]; cbn [call is_new no_copy] in *; try contradiction;
          [injection C as <- _|destruct (nth_error os i) as [[[a st]|]|] eqn:H; try discriminate ..].
        - rewrite app_length. split; [reflexivity|]. intros i. rewrite nth_snoc. destruct (Nat.eqb_spec i (length os)) as [->|N]; [|intuition discriminate].
          split; [discriminate|]. intros [H|H]; [apply nth_lt in H; lia|discriminate].
        - injection C as <- _. rewrite upd_length. split; [lia|]. intros j. destruct (Nat.eq_dec i j) as [->|N]; [rewrite nth_error_upd_eq by (eapply nth_lt; eauto); rewrite H|rewrite nth_error_upd_ne by auto]; intuition discriminate.
        - destruct st; [|discriminate]. destruct (short _); [|discriminate]. injection C as <- _. rewrite upd_length. split; [lia|]. intros j. destruct (Nat.eq_dec i j) as [->|N]; [rewrite nth_error_upd_eq by (eapply nth_lt; eauto); rewrite H|rewrite nth_error_upd_ne by auto]; intuition discriminate.
        - destruct (_ <? _)%nat; [injection C as <- _; split; [lia|]; intuition discriminate|]. destruct st; [|discriminate]. destruct (short _); [|discriminate]. injection C as <- _. rewrite upd_length. split; [lia|]. intros j. destruct (Nat.eq_dec i j) as [->|N]; [rewrite nth_error_upd_eq by (eapply nth_lt; eauto); rewrite H|rewrite nth_error_upd_ne by auto]; intuition discriminate.
        - destruct st; [|discriminate]. destruct (short _); [|discriminate]. injection C as <- _. rewrite upd_length. split; [lia|]. intros j. destruct (Nat.eq_dec i j) as [->|N]; [rewrite nth_error_upd_eq by (eapply nth_lt; eauto); rewrite H|rewrite nth_error_upd_ne by auto]; intuition discriminate.
        - injection C as <- _. rewrite upd_length. split; [lia|]. intros j. destruct (Nat.eq_dec i j) as [->|N]; [rewrite nth_error_upd_eq by (eapply nth_lt; eauto); intuition|rewrite nth_error_upd_ne by auto; intuition congruence]. }
      destruct K as [K1 K2]. split; [rewrite L, K1; cbn [filter]; destruct (is_new op); cbn [length]; lia|].
      intros i. rewrite Q, K2. cbn [In]. tauto. }
  destruct (G [] []) as (heap & ps & R & L & Q); auto. { split; auto. intros [|i]; exact I. }
  exists heap, ps. split; [exact R|]. split; [exact L|]. intros i. rewrite Q. destruct i; cbn; intuition discriminate.
Qed.

(** ** C109: hmac256 on EVP_MD_CTX is RFC 2104 *)
Definition o256 := mk_hobj A256 0 (Some A256).
Lemma h_update m b : nh_update [Some (EOn A256 m)] o256 b = Ok [Some (EOn A256 (m ++ b))].
Proof. reflexivity. Qed.
Lemma h_clear c : nh_clear [Some c] o256 = Ok [Some (EOn A256 [])].
Proof. reflexivity. Qed.
Lemma h_digest m md b : length md = 32%nat -> nh_digest [Some (EOn A256 m)] o256 md b = Ok (SHA256 (m ++ b), 32, [Some EOver]).
Proof.
  intros L. pose proof (nh_digest_ok [Some (A256, Some m)] 0 A256 m md b eq_refl) as E. cbn [hlen] in E. specialize (E ltac:(lia)).
  rewrite skipn_all2, app_nil_r in E by lia. exact E.
Qed.
Theorem C109_hmac junk out key msg : length out = 32%nat -> evp_hmac256 junk out key msg = Ok (HMAC_SHA256 key msg, [None]).
Proof.
  intros Lout. unfold evp_hmac256. cbv zeta. change (nh_new [] A256) with (Ok ([Some (EOn A256 [])], o256)). cbn [bind].
  assert (K: exists rest, (if 64 <? zlen key then
      let! (d, _, h) := nh_digest [Some (EOn A256 [])] o256 (firstn 32 (repeat junk 64)) key in
      let! k := memcpy_at (repeat junk 64) 0 d in
      let! h := nh_clear h o256 in Ok (k, h, 32)
    else let! k := memcpy_at (repeat junk 64) 0 key in Ok (k, [Some (EOn A256 [])], zlen key)) =
    Ok ((if zlen key <=? 64 then key else SHA256 key) ++ rest, [Some (EOn A256 [])], zlen (if zlen key <=? 64 then key else SHA256 key)) /\
    length ((if zlen key <=? 64 then key else SHA256 key) ++ rest) = 64%nat).
  { destruct (Z.ltb_spec 64 (zlen key)), (Z.leb_spec (zlen key) 64); try lia.
    - rewrite h_digest by (rewrite firstn_length, repeat_length; reflexivity). cbn [bind app]. destruct (SHA256_shape key) as [LS _].
      assert (EM: memcpy_at (repeat junk 64) 0 (SHA256 key) = Ok (SHA256 key ++ repeat junk 32)).
      { change (repeat junk 64) with ([] ++ repeat junk 32 ++ repeat junk 32). rewrite memcpy_exact; auto. }
      rewrite EM. cbn [bind]. rewrite h_clear. cbn [bind]. exists (repeat junk 32). split; [do 2 f_equal; unfold zlen; rewrite LS; reflexivity|].
      rewrite app_length, LS. reflexivity.
    - assert (EM: memcpy_at (repeat junk 64) 0 key = Ok (key ++ repeat junk (64 - length key))).
      { replace (repeat junk 64) with ([] ++ repeat junk (length key) ++ repeat junk (64 - length key))
          by (cbn [app]; rewrite <- repeat_app; f_equal; unfold zlen in *; lia).
        rewrite memcpy_exact by (auto; rewrite repeat_length; auto). auto. }
      rewrite EM. cbn [bind]. exists (repeat junk (64 - length key)). split; auto. rewrite app_length, repeat_length; unfold zlen in *; lia. }
  destruct K as (rest & -> & Lkk). cbn [bind]. unfold HMAC_SHA256, hmac_key. cbv zeta.
  remember (if zlen key <=? 64 then key else SHA256 key) as K0 eqn:EK0. clear EK0. rewrite app_length in Lkk.
  pose proof (xor_bytes_ok 54 (length K0) 0 [] (K0 ++ rest) eq_refl ltac:(rewrite app_length; lia)) as X1.
  rewrite firstn_app_exact, skipn_app_exact in X1. cbn [app] in X1. rewrite to_nat_zlen, X1. cbn [bind]. clear X1.
  assert (Lx: length (xor_all 54 K0) = length K0) by apply map_length.
  rewrite memcpy_end; [|unfold zlen; rewrite Lx; auto|rewrite repeat_length; unfold zlen; lia]. cbn [bind].
  assert (EK: xor_all 54 K0 ++ repeat 54 (Z.to_nat (64 - zlen K0)) = xor_all 54 (K0 ++ repeat 0 (64 - length K0))).
  { rewrite xor_all_app, xor_all_repeat. do 2 f_equal. unfold zlen. lia. }
  rewrite EK. clear EK. remember (K0 ++ repeat 0 (64 - length K0)) as K eqn:EK.
  assert (LK: length K = 64%nat) by (rewrite EK, app_length, repeat_length; lia). clear EK.
  rewrite h_update. cbn [bind app]. rewrite h_digest by auto. cbn [bind]. rewrite h_clear. cbn [bind].
  pose proof (xor_bytes_ok (Z.lxor 54 92) 64 0 [] (xor_all 54 K) eq_refl ltac:(unfold xor_all; rewrite map_length; lia)) as X2.
  rewrite firstn_all2, skipn_all2 in X2 by (unfold xor_all; rewrite map_length; lia). rewrite app_nil_r in X2. cbn [app] in X2.
  rewrite X2. cbn [bind]. clear X2. rewrite xor_all_twice. change (Z.lxor 54 (Z.lxor 54 92)) with 92.
  rewrite h_update. cbn [bind app]. rewrite h_digest by apply SHA256_shape. cbn [bind]. reflexivity.
Qed.

(** ** Finding: on EVP_MD_CTX a copied Sha256 shares the context of the original, so that bytes given to the copy enter the digest of the
    original and destroying both frees the context twice; in the other builds a copy is independent *)
Theorem C109_copy_finding a x y : let p := [DNew a; DCopy 0; DUpdate 1 x; DDigestStr 0 y] in
  (exists s, run evp_step ([], []) p = Ok ([RNone; RNone; RNone; RStr (hash a (x ++ y))], s)) /\
  (exists s, run old_step [] p = Ok ([RNone; RNone; RNone; RStr (hash a y)], s)) /\
  run evp_step ([], []) [DNew a; DCopy 0; DDelete 0; DDelete 1] = UB.
Proof.
  intros p. split; [|split].
  - set (h := [Some (a, Some x)] : list (option sobj)). set (o := mk_hobj a 0 (Some a)).
    pose proof (nh_digest_ok h 0 a x (repeat 0 (hlen a)) y eq_refl ltac:(rewrite zeros_length; lia)) as E. rewrite skipn_all2, app_nil_r in E by (rewrite zeros_length; lia).
    assert (E0 : run evp_step ([], []) p = run evp_step ([], []) ([DNew a; DCopy 0; DUpdate 1 x] ++ [DDigestStr 0 y])) by reflexivity.
    assert (D : evp_step (heap_of h, [Some o; Some o]) (DDigestStr 0 y) = Ok ((heap_of (upd h 0 (Some (a, None))), [Some o; Some o]), RStr (hash a (x ++ y)))).
    { cbn [evp_step get nth_error bind o o_cls]. rewrite MD_SIZE_hlen, Nat2Z.id. subst o. rewrite E. reflexivity. }
    eexists. unfold p. cbn [run].
    replace (evp_step ([], []) (DNew a)) with (Ok (([Some (EOn a [])], [Some o]), RNone)) by (destruct a; reflexivity). cbn [bind].
    change (evp_step ([Some (EOn a [])], [Some o]) (DCopy 0)) with (Ok (([Some (EOn a [])], [Some o; Some o]), RNone)). cbn [bind].
    change (evp_step ([Some (EOn a [])], [Some o; Some o]) (DUpdate 1 x)) with (Ok ((heap_of h, [Some o; Some o]), RNone)). cbn [bind].
    rewrite D. cbn [bind]. reflexivity.
  - set (os := [Some (a, Some []); Some (a, Some x)] : list (option ctx)).
    assert (D : old_step os (DDigestStr 0 y) = Ok (upd os 0 (Some (a, None)), RStr (hash a y))).
    { cbn [old_step os get nth_error bind fst]. unfold old_digest. cbn [fst]. rewrite size_test, MD_SIZE_hlen, Nat2Z.id, zeros_length, Nat.ltb_irrefl. cbn [old_update bind app].
      rewrite memcpy_hash by (rewrite zeros_length; lia). cbn [bind]. now rewrite skipn_all2, app_nil_r, openssl_hash by (rewrite zeros_length; lia). }
    eexists. unfold p. cbn [run]. set (o1 := [Some (a, Some [])] : list (option ctx)). set (o2 := [Some (a, Some []); Some (a, Some [])] : list (option ctx)).
    change (old_step [] (DNew a)) with (Ok (o1, RNone)). cbn [bind]. change (old_step o1 (DCopy 0)) with (Ok (o2, RNone)). cbn [bind].
    change (old_step o2 (DUpdate 1 x)) with (Ok (os, RNone)). cbn [bind]. rewrite D. cbn [bind]. reflexivity.
  - destruct a; reflexivity.
Qed.
(** ** Finding: a second digest without clear fails inside OpenSSL, and the object reports success: the string form returns zeros, the
    buffer form returns the size and leaves the buffer as it was *)
Theorem C109_again_finding h os i a md b : nth_error os i = Some (Some (mk_hobj a i (Some a))) -> nth_error h i = Some (Some EOver) ->
  evp_step (h, os) (DDigestStr i b) = Ok ((h, os), RStr (repeat 0 (hlen a))) /\
  ((hlen a <= length md)%nat -> evp_step (h, os) (DDigest i md b) = Ok ((h, os), RBuf md (Z.of_nat (hlen a)))).
Proof.
  intros Ho Hh. assert (G : forall md, (hlen a <= length md)%nat -> nh_digest h (mk_hobj a i (Some a)) md b = Ok (md, Z.of_nat (hlen a), h)).
  { intros m L. unfold nh_digest. cbn [o_cls]. rewrite size_test. destruct (Nat.ltb_spec (length m) (hlen a)); [lia|]. unfold nh_update. cbn [o_ctx]. unfold get.
    rewrite Hh. cbn [bind evp_update]. rewrite upd_same by auto. rewrite Hh. cbn [bind evp_final]. unfold memcpy_at. cbn [zlen length Z.of_nat].
    destruct (Z.ltb_spec (zlen m) (0 + 0)) as [X|X]; [unfold zlen in X; lia|]. cbn [orb bind Z.to_nat firstn app Z.add skipn]. change (0 <? 0) with false. cbn [orb bind].
    now rewrite upd_same, MD_SIZE_hlen by auto. }
  cbn [evp_step]. unfold get at 1 2. rewrite Ho. cbn [bind o_cls]. rewrite MD_SIZE_hlen, Nat2Z.id. split.
  - rewrite G by (rewrite zeros_length; lia). reflexivity.
  - intros L. now rewrite G.
Qed.

(** a program with two objects of different classes, a buffer that is too small, a reuse after clear *)
Example C109_example : let p := [DNew A256; DNew A512; DUpdate 0 [97]; DUpdate 1 [98]; DDigest 0 [1; 2] [5]; DDigestStr 0 [98; 99]; DClear 0; DDigestStr 0 []; DDelete 1] in
  Forall op_bytes p /\ Forall no_copy p /\ calls [] p = Some [RNone; RNone; RNone; RNone; RBuf [1; 2] 0; RStr (SHA256 [97; 98; 99]); RNone; RStr (SHA256 []); RNone].
Proof.
  intros p. split; [|split].
  - repeat constructor; cbn; repeat constructor; unfold is_byte; lia.
  - repeat constructor.
  - reflexivity.
Qed.
Example C109_again_example a x : run evp_step ([], []) [DNew a; DDigestStr 0 x] =
  Ok ([RNone; RStr (hash a x)], ([Some EOver], [Some (mk_hobj a 0 (Some a))])).
Proof.
  cbn [run]. replace (evp_step ([], []) (DNew a)) with (Ok ((heap_of [Some (a, Some [])], [Some (mk_hobj a 0 (Some a))]), RNone)) by (destruct a; reflexivity). cbn [bind].
  cbn [evp_step get nth_error bind o_cls]. rewrite MD_SIZE_hlen, Nat2Z.id.
  rewrite (nh_digest_ok [Some (a, Some [])] 0 a [] _ x eq_refl) by (rewrite zeros_length; lia). cbn [bind app]. now rewrite skipn_all2, app_nil_r by (rewrite zeros_length; lia).
Qed.
Print Assumptions C109_same. Print Assumptions C109_contexts. Print Assumptions C109_hmac. Print Assumptions C109_copy_finding. Print Assumptions C109_again_finding.
