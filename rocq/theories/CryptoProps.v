(** C81: the OpenSSL wrapper (include/cybozu/crypto.hpp) *)
Require Import Verif.Common Verif.Text Verif.CryptoModel.

(** ** Hash *)
(** what a use of one object should give: each digest is of everything since the last digest or reset *)
Fixpoint expected (H : Z -> list Z -> list Z) (name : Z) (acc : list Z) (l : list hop) : list (list Z) :=
  match l with
  | [] => []
  | Update d :: l => expected H name (acc ++ d) l
  | Digest d :: l => H name (acc ++ d) :: expected H name [] l
  | Reset :: l => expected H name [] l
  end.
(** the digests have the sizes of the standard, FIPS 180-4, in bits *)
Definition fips : list (Z * Z) := [(N_SHA1, 160); (N_SHA224, 224); (N_SHA256, 256); (N_SHA384, 384); (N_SHA512, 512)].
Definition sized (H : Z -> list Z -> list Z) : Prop := forall name bits d, In (name, bits) fips -> 8 * zlen (H name d) = bits.

Lemma getSize_range name n : getSize name = Some n -> 0 <= name <= 4 /\ 20 <= n <= 64.
Proof.
  unfold getSize. intros E. destruct name as [|p|p]; [injection E as <-; lia| |discriminate].
  destruct p as [[p|p|]|[p|[p|p|]|]|]; try discriminate; injection E as <-; lia.
Qed.
(** getSize gives the size of the standard in bytes, and throws for any other value *)
Theorem C81_sizes name : (forall n, getSize name = Some n <-> In (name, 8 * n) fips) /\ (getSize name = None <-> ~ exists bits, In (name, bits) fips).
Proof.
  assert (R: forall bits, In (name, bits) fips -> exists n, bits = 8 * n /\ getSize name = Some n).
  { intros bits I. cbn in I. destruct I as [I|[I|[I|[I|[I|[]]]]]]; injection I as <- <-; [exists 20|exists 28|exists 32|exists 48|exists 64]; split; reflexivity. }
  assert (S: forall n, getSize name = Some n -> In (name, 8 * n) fips).
  { intros n E. pose proof (getSize_range _ _ E) as [C _]. assert (D: name = 0 \/ name = 1 \/ name = 2 \/ name = 3 \/ name = 4) by lia. destruct D as [->|[->|[->|[->| ->]]]]; injection E as <-; cbn; auto 10. }
  split.
  - intros n. split; [apply S|]. intros I. destruct (R _ I) as (m & M & ->). f_equal. lia.
  - split; [intros E (bits & I); destruct (R _ I) as (m & _ & X); congruence|]. intros N. destruct (getSize name) as [n|] eqn:E; auto. exfalso. apply N. exists (8 * n). apply S. auto.
Qed.
Lemma sized_len H name n d : sized H -> getSize name = Some n -> zlen (H name d) = n.
Proof. intros SZ E. apply C81_sizes in E. specialize (SZ name (8 * n) d E). lia. Qed.
Lemma reset_name avail w h n : getSize (name_ h) = Some n -> reset avail w h = setCTX avail w (ctx_ h) (name_ h).
Proof.
  intros E. apply getSize_range in E. destruct E as [E _]. unfold reset.
  assert (C: name_ h = 0 \/ name_ h = 1 \/ name_ h = 2 \/ name_ h = 3 \/ name_ h = 4) by lia. destruct C as [->|[->|[->|[->| ->]]]]; reflexivity.
Qed.
Lemma nth_upd_eq {X} (l : list X) i x : (i < length l)%nat -> nth_error (upd l i x) i = Some x.
Proof. apply nth_error_upd_eq. Qed.
Lemma upd_twice {X} (l : list X) i a b : upd (upd l i a) i b = upd l i b.
Proof. revert i. induction l; intros [|i]; cbn; auto. f_equal. auto. Qed.
Lemma upd_last {X} (l : list X) a b : upd (l ++ [a]) (length l) b = l ++ [b].
Proof. induction l; cbn; auto. f_equal. auto. Qed.
Lemma nth_last {X} (l : list X) a : nth_error (l ++ [a]) (length l) = Some a.
Proof. rewrite nth_error_app2, Nat.sub_diag by lia. reflexivity. Qed.

Lemma run_ok H avail name n : sized H -> getSize name = Some n -> avail name = true -> forall l w acc outs,
  hash_run H avail (w ++ [Init name acc]) (mk_hash name n (Some (length w))) l outs =
  Done (outs ++ expected H name acc l) (w ++ [Init name (fold_left (fun a o => match o with Update d => a ++ d | _ => [] end) l acc)]).
Proof.
  intros SZ GS AV. induction l as [|o l IH]; intros w acc outs; cbn [hash_run expected fold_left]; [rewrite app_nil_r; auto|].
  set (h := mk_hash name n (Some (length w))).
  assert (UP: forall d, update (w ++ [Init name acc]) h d = Done tt (w ++ [Init name (acc ++ d)])).
  { intros d. unfold update, h. cbn [ctx_]. rewrite nth_last, upd_last. auto. }
  assert (RS: forall c, c <> Freed -> reset avail (w ++ [c]) h = Done tt (w ++ [Init name []])).
  { intros c NF. rewrite (reset_name avail _ h n) by auto. unfold setCTX, h. cbn [name_ ctx_]. rewrite AV, nth_last. destruct c; [congruence| |]; rewrite upd_last; auto. }
  destruct o as [d|d|].
  - rewrite UP. cbn [ebind]. apply IH.
  - unfold digest_str, digest. rewrite UP. cbn [ebind]. unfold h at 1. cbn [ctx_]. unfold final. rewrite nth_last, upd_last. cbn [ebind].
    assert (L: zlen (H name (acc ++ d)) = n) by (apply sized_len; auto). assert (RN: 20 <= n <= 64) by (apply (getSize_range name); auto).
    assert (LR: zlen (repeat 0 (Z.to_nat (hashSize_ h))) = n) by (unfold zlen; rewrite repeat_length; unfold h; cbn [hashSize_]; lia).
    rewrite LR, L, Z.ltb_irrefl. rewrite skipn_all2 by (unfold zlen in *; lia). rewrite app_nil_r.
    rewrite RS by discriminate. cbn [ebind]. rewrite IH, <- app_assoc. reflexivity.
  - rewrite RS by discriminate. cbn [ebind]. apply IH.
Qed.
(** Any use of an object from its declaration to the end of its scope: the digests are those of the data since the last
    digest or reset; the context is freed and nothing else touched *)
Theorem C81_hash H avail name n l w : sized H -> getSize name = Some n -> avail name = true ->
  hash_scope H avail w name l = Done (expected H name [] l) (w ++ [Freed]).
Proof.
  intros SZ GS AV. unfold hash_scope, hash_new. rewrite GS. set (h := mk_hash name n (Some (length w))).
  rewrite (reset_name avail _ h n) by auto. unfold setCTX. cbn [name_ ctx_ h]. rewrite AV, nth_last, upd_last. cbn [ebind].
  unfold h. rewrite (run_ok H avail name n SZ GS AV). cbn [ebind app]. unfold hash_del. cbn [ctx_]. rewrite nth_last, upd_last. reflexivity.
Qed.
(** the static functions: the digest of the data, in the local array of 128 bytes; the context is freed *)
Theorem C81_static H avail name n d w junk : sized H -> getSize name = Some n -> avail name = true -> 128 <= zlen junk ->
  digest_of H avail w true junk name d = Done (H name d) (w ++ [Freed]).
Proof.
  intros SZ GS AV LJ. assert (RN: 20 <= n <= 64) by (apply (getSize_range name); auto). assert (L: zlen (H name d) = n) by (apply sized_len; auto).
  unfold digest_of, digest_static, hash_new. rewrite GS. set (h := mk_hash name n (Some (length w))).
  rewrite (reset_name avail _ h n) by auto. unfold setCTX. cbn [name_ ctx_ h]. rewrite AV, nth_last, upd_last. cbn [ebind].
  unfold digest, update. cbn [ctx_ h]. rewrite nth_last, upd_last. cbn [ebind]. unfold final. rewrite nth_last, upd_last. cbn [ebind app].
  assert (LF: zlen (firstn 128 junk) = 128) by (unfold zlen in *; rewrite firstn_length; lia).
  destruct (Z.ltb_spec (zlen (firstn 128 junk)) (zlen (H name d))); [lia|].
  rewrite (reset_name avail _ h n) by auto. unfold setCTX. cbn [name_ ctx_ h]. rewrite AV, nth_last, upd_last. cbn [ebind].
  unfold hash_del. cbn [ctx_ h]. rewrite nth_last, upd_last. cbn [ebind].
  destruct (Z.eqb_spec n 0); [lia|]. f_equal. rewrite firstn_app, firstn_all2 by (unfold zlen in *; lia).
  replace (Z.to_nat n - length (H name d))%nat with 0%nat by (unfold zlen in *; lia). rewrite firstn_O, app_nil_r. auto.
Qed.
(** the build with the union of three contexts gives the same digests *)
Theorem C81_union H name n l : getSize name = Some n -> exists c, u_reset name = Some c /\ u_run H name c l = Ok (expected H name [] l).
Proof.
  intros GS. apply getSize_range in GS. destruct GS as [GS _].
  assert (C: name = 0 \/ name = 1 \/ name = 2 \/ name = 3 \/ name = 4) by lia. clear GS n.
  destruct C as [->|[->|[->|[->| ->]]]]; cbn [u_reset]; eexists; (split; [reflexivity|]).
  - generalize (@nil Z). induction l as [|[d|d|] l IH]; intros acc; cbn [u_run expected u_digest u_update u_reset bind]; auto; [rewrite IH; reflexivity].
  - generalize (@nil Z). induction l as [|[d|d|] l IH]; intros acc; cbn [u_run expected u_digest u_update u_reset bind]; auto; [rewrite IH; reflexivity].
  - generalize (@nil Z). induction l as [|[d|d|] l IH]; intros acc; cbn [u_run expected u_digest u_update u_reset bind]; auto; [rewrite IH; reflexivity].
  - generalize (@nil Z). induction l as [|[d|d|] l IH]; intros acc; cbn [u_run expected u_digest u_update u_reset bind]; auto; [rewrite IH; reflexivity].
  - generalize (@nil Z). induction l as [|[d|d|] l IH]; intros acc; cbn [u_run expected u_digest u_update u_reset bind]; auto; [rewrite IH; reflexivity].
Qed.
(** names: the two functions are inverse to each other, and defined for the same five digests as getSize *)
Definition the_names : list (Z * list Z) := [(0, str "sha1"); (1, str "sha224"); (2, str "sha256"); (3, str "sha384"); (4, str "sha512")].
Theorem C81_names : (forall name s, getName name = Some s <-> fromName s = Some name) /\ (forall name, getName name = None <-> getSize name = None) /\
  (forall name s, getName name = Some s <-> In (name, s) the_names).
Proof.
  assert (R: forall name, 0 <= name <= 4 \/ (getName name = None /\ getSize name = None)).
  { intros [|p|p]; [left; lia| |right; auto]. destruct p as [[p|p|]|[p|[p|p|]|]|]; auto; left; lia. }
  split; [|split].
  - intros name s. split.
    + intros E. destruct (R name) as [C|[C _]]; [|congruence].
      assert (D: name = 0 \/ name = 1 \/ name = 2 \/ name = 3 \/ name = 4) by lia. destruct D as [->|[->|[->|[->| ->]]]]; injection E as <-; reflexivity.
    + unfold fromName, tbl. cbn [lookup]. repeat (destruct (list_eq_dec Z.eq_dec s _) as [->|]; [intros E; injection E as <-; reflexivity|]). discriminate.
  - intros name. destruct (R name) as [C|[C1 C2]]; [|tauto].
    assert (D: name = 0 \/ name = 1 \/ name = 2 \/ name = 3 \/ name = 4) by lia. destruct D as [->|[->|[->|[->| ->]]]]; cbn; split; discriminate.
  - intros name s. split.
    + intros E. destruct (R name) as [C|[C _]]; [|congruence].
      assert (D: name = 0 \/ name = 1 \/ name = 2 \/ name = 3 \/ name = 4) by lia. destruct D as [->|[->|[->|[->| ->]]]]; injection E as <-; vm_compute; auto 10.
    + intros H. unfold the_names in H. repeat (destruct H as [H|H]; [injection H as <- <-; reflexivity|]). destruct H.
Qed.
Definition H0 (name : Z) (d : list Z) : list Z := match getSize name with Some n => repeat (fold_right Z.add 0 d) (Z.to_nat n) | None => [] end.
Example C81_hash_hyp : sized H0.
Proof.
  intros name bits d I. unfold H0, zlen. cbn in I. destruct I as [I|[I|[I|[I|[I|[]]]]]]; injection I as <- <-; cbn [getSize N_SHA1 N_SHA224 N_SHA256 N_SHA384 N_SHA512]; rewrite repeat_length; reflexivity.
Qed.
Example C81_hash_ex : hash_scope H0 (fun _ => true) [Freed] 0 [Update [1]; Update [2; 3]; Digest [4]; Digest [5]; Update [9]; Reset; Digest []] =
  Done [repeat 10 20; repeat 5 20; repeat 0 20] [Freed; Freed].
Proof. reflexivity. Qed.
(** ** Finding: a copied Hash object frees its context twice
    the class has a destructor that frees ctx_ and the implicit copy constructor *)
Theorem C81_copy_finding : exists w h, hash_new (fun _ => true) [] true N_SHA256 = Done h w /\ exists w1, hash_del w (hash_copy h) = Done tt w1 /\ hash_del w1 h = Undef.
Proof. eexists _, _. split; [reflexivity|]. eexists. split; reflexivity. Qed.
(** ** Finding: the constructor of Hash leaks its context if the digest is not available
    EVP_MD_CTX_new has succeeded, setCTX throws, the destructor does not run *)
Theorem C81_ctor_leak_finding : hash_new (fun _ => false) [] true N_SHA1 = Throw [Fresh].
Proof. reflexivity. Qed.
(** ** Finding: Hash uses a null context if EVP_MD_CTX_new fails
    the result is not checked *)
Theorem C81_null_ctx_finding : hash_new (fun _ => true) [] false N_SHA1 = Undef.
Proof. reflexivity. Qed.

(** ** Hmac *)
(** for keys below 2^31 bytes: the MAC of the whole key and data *)
Theorem C81_hmac M name bits key data : In (name, bits) fips -> (forall k d, 8 * zlen (M name k d) = bits) -> zlen key < 2147483648 ->
  hmac_eval M name key data = Ok (M name key data).
Proof.
  intros IF SZ' LK. assert (GS: exists n, getSize name = Some n /\ forall k d, zlen (M name k d) = n).
  { destruct (getSize name) as [n|] eqn:E; [|exfalso; apply (C81_sizes name) in E; eauto]. exists n. split; auto. intros k d. specialize (SZ' k d). apply (C81_sizes name) in E.
    assert (bits = 8 * n) by (unfold fips, N_SHA1, N_SHA224, N_SHA256, N_SHA384, N_SHA512 in IF, E; cbn [In] in IF, E; destruct IF as [I|[I|[I|[I|[I|[]]]]]]; pose proof (f_equal fst I) as X1; pose proof (f_equal snd I) as X2; cbn [fst snd] in X1, X2; destruct E as [J|[J|[J|[J|[J|[]]]]]]; pose proof (f_equal fst J) as Y1; pose proof (f_equal snd J) as Y2; cbn [fst snd] in Y1, Y2; lia). lia. }
  clear IF SZ'. destruct GS as (n & GS & SZ). unfold hmac_eval. rewrite GS. pose proof (zlen_nonneg key). assert (RN: 20 <= n <= 64) by (apply (getSize_range name); auto).
  assert (T: to_int (zlen key) = zlen key) by (unfold to_int; rewrite Z.mod_small by lia; destruct (Z.ltb_spec (zlen key) 2147483648); lia).
  rewrite T. destruct (Z.ltb_spec (zlen key) 0); [lia|]. rewrite to_nat_zlen, firstn_all. specialize (SZ key data).
  destruct (Z.ltb_spec (zlen (repeat 0 (Z.to_nat (n + 1)))) (zlen (M name key data))) as [L|L]; [unfold zlen in L, SZ; rewrite repeat_length in L; lia|].
  rewrite firstn_app, firstn_all, Nat.sub_diag, firstn_O, app_nil_r. auto.
Qed.
Example C81_hmac_ex : hmac_eval (fun n k d => repeat (fold_right Z.add 0 (k ++ d)) 20) 0 [1; 2] [3] = Ok (repeat 6 20).
Proof. reflexivity. Qed.
(** ** Finding: Hmac ignores all of a key of 2^32 + k bytes but the first k
    the length is cast to int *)
Theorem C81_hmac_key_finding M name n key data : getSize name = Some n -> (forall k d, zlen (M name k d) = n) ->
  zlen key = 4294967296 + 5 -> hmac_eval M name key data = hmac_eval M name (firstn 5 key) data.
Proof.
  intros GS SZ LK. rewrite (C81_hmac M name (8 * n) (firstn 5 key)) by (try apply C81_sizes; auto; try (intros; rewrite SZ; auto); unfold zlen; pose proof (firstn_le_length 5 key); lia).
  unfold hmac_eval. rewrite GS, LK. assert (RN: 20 <= n <= 64) by (apply (getSize_range name); auto).
  change (to_int (4294967296 + 5)) with 5. change (5 <? 0) with false. cbv iota. change (Z.to_nat 5) with 5%nat. specialize (SZ (firstn 5 key) data).
  destruct (Z.ltb_spec (zlen (repeat 0 (Z.to_nat (n + 1)))) (zlen (M name (firstn 5 key) data))) as [L|L]; [unfold zlen in L, SZ; rewrite repeat_length in L; lia|].
  rewrite firstn_app, firstn_all, Nat.sub_diag, firstn_O, app_nil_r. auto.
Qed.

(** ** Cipher *)
Definition byte (x : Z) : Prop := 0 <= x < 256.
(** a block cipher: on blocks of 16 bytes Dec undoes Enc *)
Definition cipher (Enc Dec : list Z -> list Z -> list Z) : Prop :=
  (forall k b, length b = 16%nat -> length (Enc k b) = 16%nat /\ length (Dec k b) = 16%nat) /\
  (forall k b, length b = 16%nat -> Forall byte b -> Forall byte (Enc k b) /\ Dec k (Enc k b) = b).

Lemma zlen_skipn16 (l : list Z) : 16 <= zlen l -> zlen (skipn 16 l) = zlen l - 16.
Proof. intros. unfold zlen in *. rewrite skipn_length. lia. Qed.
Lemma ready_app c x : ready c = true -> forall p, ready (mk_c (cbc c) (enc c) (pad c) (ckey c) p (pend c ++ x)) = true.
Proof. unfold ready. cbn [pad enc pend]. rewrite zlen_app. pose proof (zlen_nonneg x). intros R p. destruct (pad c && negb (enc c)); lia. Qed.
Lemma ready_len c : ready c = true -> 16 <= zlen (pend c).
Proof. unfold ready. destruct (pad c && negb (enc c)); lia. Qed.
Definition more (c : cst) (x : list Z) : cst := mk_c (cbc c) (enc c) (pad c) (ckey c) (prev c) (pend c ++ x).
Lemma drain_enough Enc Dec : forall n c m, (length (pend c) < n)%nat -> (n <= m)%nat -> drain Enc Dec m c = drain Enc Dec n c.
Proof.
  induction n as [|n IH]; intros c m L1 L2; [lia|]. destruct m as [|m]; [lia|]. cbn [drain]. destruct (ready c) eqn:R; [|auto].
  apply ready_len in R. unfold zlen in R. destruct (block Enc Dec c (firstn 16 (pend c))) as [o c']. rewrite (IH _ m); [auto| |lia]. cbn [pend]. rewrite skipn_length. lia.
Qed.
Lemma block_fields Enc Dec c b : let c' := snd (block Enc Dec c b) in cbc c' = cbc c /\ enc c' = enc c /\ pad c' = pad c /\ ckey c' = ckey c /\ pend c' = pend c.
Proof. unfold block. destruct (enc c) eqn:E; cbn; auto. Qed.
(** what is pending does not matter to a block *)
Lemma block_more Enc Dec c x b : block Enc Dec (more c x) b = (fst (block Enc Dec c b), more (snd (block Enc Dec c b)) x).
Proof. unfold block, more. cbn [enc cbc ckey prev pad pend]. destruct (enc c) eqn:E; cbn; auto. Qed.
Lemma drain_S Enc Dec n c : drain Enc Dec (S n) c = if ready c then
  let (o, c') := block Enc Dec c (firstn 16 (pend c)) in
  let (r, c'') := drain Enc Dec n (mk_c (cbc c') (enc c') (pad c') (ckey c') (prev c') (skipn 16 (pend c))) in (o ++ r, c'') else ([], c).
Proof. reflexivity. Qed.
Lemma drain_pend Enc Dec : forall n c o c', drain Enc Dec n c = (o, c') -> (length (pend c') <= length (pend c))%nat.
Proof.
  induction n as [|n IH]; intros c o c' E; [injection E as <- <-; auto|]. rewrite drain_S in E.
  destruct (ready c) eqn:R; [|injection E as <- <-; auto]. destruct (block Enc Dec c (firstn 16 (pend c))) as [o1 c1].
  destruct (drain Enc Dec n _) as [r c''] eqn:E1. injection E as <- <-. apply IH in E1. cbn [pend] in E1. rewrite skipn_length in E1. lia.
Qed.
Lemma drain_more Enc Dec : forall n c x m, (length (pend c) < n)%nat -> (length (pend c) + length x < m)%nat ->
  drain Enc Dec m (more c x) = let (o1, c1) := drain Enc Dec n c in let (o2, c2) := drain Enc Dec m (more c1 x) in (o1 ++ o2, c2).
Proof.
  induction n as [|n IH]; intros c x m L1 L2; [lia|]. rewrite (drain_S _ _ n c). destruct (ready c) eqn:R.
  2:{ destruct (drain Enc Dec m (more c x)). auto. }
  destruct m as [|m]; [lia|]. pose proof (ready_len _ R) as L. unfold zlen in L.
  rewrite (drain_S _ _ m (more c x)). assert (RM: ready (more c x) = true) by apply (ready_app c x R). rewrite RM.
  replace (firstn 16 (pend (more c x))) with (firstn 16 (pend c)) by (cbn [more pend]; rewrite firstn_app; replace (16 - length (pend c))%nat with 0%nat by lia; rewrite firstn_O, app_nil_r; auto).
  rewrite block_more. pose proof (block_fields Enc Dec c (firstn 16 (pend c))) as F. destruct (block Enc Dec c (firstn 16 (pend c))) as [o c'] eqn:EB. cbn [fst snd] in *.
  destruct F as (F1 & F2 & F3 & F4 & F5).
  set (c1 := mk_c (cbc c') (enc c') (pad c') (ckey c') (prev c') (skipn 16 (pend c))).
  replace (mk_c (cbc (more c' x)) (enc (more c' x)) (pad (more c' x)) (ckey (more c' x)) (prev (more c' x)) (skipn 16 (pend (more c x)))) with (more c1 x).
  2:{ unfold more, c1. cbn [cbc enc pad ckey prev pend]. f_equal. rewrite skipn_app. replace (16 - length (pend c))%nat with 0%nat by lia. auto. }
  assert (P1: length (pend c1) = (length (pend c) - 16)%nat) by (unfold c1; cbn [pend]; apply skipn_length).
  rewrite (IH c1 x m) by lia. destruct (drain Enc Dec n c1) as [o1 c2] eqn:E1. apply drain_pend in E1.
  assert (PM: length (pend (more c2 x)) = (length (pend c2) + length x)%nat) by (unfold more; cbn [pend]; apply app_length).
  rewrite (drain_enough Enc Dec m (more c2 x) (S m)) by lia.
  destruct (drain Enc Dec m (more c2 x)) as [o2 c3]. rewrite app_assoc. auto.
Qed.
Lemma c_update_def Enc Dec c x : c_update Enc Dec c x = drain Enc Dec (S (length (pend c) + length x)) (more c x).
Proof. unfold c_update. cbn [pend]. rewrite app_length. reflexivity. Qed.
Lemma more_more c x y : more (more c x) y = more c (x ++ y).
Proof. unfold more. cbn [cbc enc pad ckey prev pend]. rewrite app_assoc. auto. Qed.
Lemma c_update_app Enc Dec c a b : c_update Enc Dec c (a ++ b) =
  let (o1, c1) := c_update Enc Dec c a in let (o2, c2) := c_update Enc Dec c1 b in (o1 ++ o2, c2).
Proof.
  rewrite !c_update_def, <- more_more. rewrite app_length.
  rewrite (drain_more Enc Dec (S (length (pend c) + length a)) (more c a) b) by (unfold more; cbn [pend]; rewrite app_length; lia).
  destruct (drain Enc Dec (S (length (pend c) + length a)) (more c a)) as [o1 c1] eqn:E1. apply drain_pend in E1. unfold more in E1. cbn [pend] in E1. rewrite app_length in E1.
  rewrite c_update_def. rewrite (drain_enough Enc Dec (S (length (pend c1) + length b)) (more c1 b)); auto; unfold more; cbn [pend]; rewrite ?app_length; lia.
Qed.
(** the pieces do not matter *)
Lemma c_run_concat Enc Dec : forall l c, ready c = false -> c_run Enc Dec c l = let (o, c') := c_update Enc Dec c (concat l) in (o, c_final Enc Dec c').
Proof.
  assert (U0: forall c, ready c = false -> c_update Enc Dec c [] = ([], c)).
  { intros c R. rewrite c_update_def. assert (M: more c [] = c) by (destruct c as [c0 c1 c2 c3 c4 c5]; unfold more; cbn [cbc enc pad ckey prev pend]; rewrite app_nil_r; auto). rewrite M, drain_S, R. auto. }
  assert (NR: forall n c, (length (pend c) < n)%nat -> ready (snd (drain Enc Dec n c)) = false).
  { induction n as [|n IH]; intros c L; [lia|]. rewrite drain_S. destruct (ready c) eqn:R; [|auto]. pose proof (ready_len _ R) as L16. unfold zlen in L16.
    destruct (block Enc Dec c (firstn 16 (pend c))) as [o c']. specialize (IH (mk_c (cbc c') (enc c') (pad c') (ckey c') (prev c') (skipn 16 (pend c)))).
    destruct (drain Enc Dec n _). apply IH. cbn [pend]. rewrite skipn_length. lia. }
  induction l as [|p l IH]; intros c R; cbn [c_run concat]; [rewrite (U0 c R); auto|].
  rewrite c_update_app. assert (R1: ready (snd (c_update Enc Dec c p)) = false) by (rewrite c_update_def; apply NR; unfold more; cbn [pend]; rewrite app_length; lia).
  destruct (c_update Enc Dec c p) as [o1 c1]. cbn [snd] in R1. rewrite (IH c1 R1). destruct (c_update Enc Dec c1 (concat l)). auto.
Qed.
Lemma setup_start name e key iv p c : setup name e key iv p = Ok c -> pend c = [] /\ enc c = e /\ pad c = p /\ cbc c = isCbc name /\ (cbc c = true -> length (prev c) = 16%nat).
Proof.
  unfold setup. destruct (keyLength name) as [n|]; [|discriminate]. destruct (negb _); [discriminate|]. destruct (_ <? n); [discriminate|].
  destruct (isCbc name) eqn:C.
  - destruct (Z.ltb_spec (zlen iv + 1) 16); [discriminate|]. assert (LQ: length (firstn 16 (iv ++ [0])) = 16%nat) by (rewrite firstn_length, app_length; change (length [0]) with 1%nat; unfold zlen in *; lia).
    remember (firstn 16 (iv ++ [0])) as q eqn:EQ. clear EQ. intros E. injection E as <-. do 4 (split; [reflexivity|]). auto.
  - intros E. injection E as <-. cbn. repeat split; auto. discriminate.
Qed.
(** How the input is cut into pieces does not change the output *)
Theorem C81_pieces Enc Dec name e key iv p c l1 l2 : setup name e key iv p = Ok c -> concat l1 = concat l2 -> c_run Enc Dec c l1 = c_run Enc Dec c l2.
Proof.
  intros S E. apply setup_start in S. destruct S as (P & _ & _ & _). assert (R: ready c = false) by (unfold ready; rewrite P; destruct (pad c && negb (enc c)); reflexivity).
  rewrite !c_run_concat, E by auto. auto.
Qed.

Lemma xor_len a b : length a = 16%nat -> length b = 16%nat -> length (xor a b) = 16%nat.
Proof. intros. unfold xor. rewrite map_length, combine_length. lia. Qed.
Lemma xor_xor a : forall b, (length a <= length b)%nat -> xor (xor a b) b = a.
Proof.
  induction a as [|x a IH]; intros [|y b] L; cbn in *; auto; [lia|]. unfold xor in *. cbn. rewrite Z.lxor_assoc, Z.lxor_nilpotent, Z.lxor_0_r. f_equal. apply IH. lia.
Qed.
Lemma lxor_byte x y : byte x -> byte y -> byte (Z.lxor x y).
Proof.
  unfold byte. intros Hx Hy. assert (N: 0 <= Z.lxor x y) by (apply Z.lxor_nonneg; lia). split; [auto|].
  destruct (Z.eq_dec (Z.lxor x y) 0) as [->|NZ]; [lia|]. change 256 with (2 ^ 8). apply Z.log2_lt_pow2; [lia|].
  pose proof (Z.log2_lxor x y ltac:(lia) ltac:(lia)).
  assert (LB: forall z, 0 <= z < 256 -> Z.log2 z < 8) by (intros z Hz; destruct (Z.eq_dec z 0) as [->|]; [cbn; lia|apply Z.log2_lt_pow2; lia]).
  pose proof (LB x Hx). pose proof (LB y Hy). lia.
Qed.
Lemma xor_byte a : forall b, Forall byte a -> Forall byte b -> Forall byte (xor a b).
Proof. induction a as [|x a IH]; intros [|y b] A B; unfold xor in *; cbn; auto. inversion A; inversion B; subst. constructor; auto using lxor_byte. Qed.
Lemma firstn16 {X} (l : list X) : (16 <= length l)%nat -> length (firstn 16 l) = 16%nat.
Proof. intros. rewrite firstn_length. lia. Qed.

Section RoundTrip.
Variables Enc Dec : list Z -> list Z -> list Z.
Hypothesis CP : cipher Enc Dec.
(** the chaining block *)
Definition chain_ok (cb : bool) (p : list Z) : Prop := cb = true -> length p = 16%nat /\ Forall byte p.
(** one block there and back *)
Lemma block_rt cb pe pd k p b x y : chain_ok cb p -> length b = 16%nat -> Forall byte b -> exists o p',
  block Enc Dec (mk_c cb true pe k p x) b = (o, mk_c cb true pe k p' x) /\ length o = 16%nat /\ chain_ok cb p' /\
  block Enc Dec (mk_c cb false pd k p y) o = (b, mk_c cb false pd k p' y).
Proof.
  destruct CP as [C1 C2]. intros CH L B. unfold block. cbn [enc cbc ckey prev pad pend]. destruct cb.
  - destruct (CH eq_refl) as [LP BP]. pose proof (xor_len b p L LP) as LX. pose proof (xor_byte b p B BP) as BX.
    destruct (C1 k _ LX) as [LE _]. destruct (C2 k _ LX BX) as [BE DE]. eexists _, _. split; [reflexivity|]. split; [auto|]. split; [intros _; auto|]. rewrite DE, xor_xor by lia. reflexivity.
  - destruct (C1 k _ L) as [LE _]. destruct (C2 k _ L B) as [BE DE]. eexists _, _. split; [reflexivity|]. split; [auto|]. split; [intros X; discriminate|]. rewrite DE. reflexivity.
Qed.
(** all of the complete blocks; t: what the decoder finds after them *)
Lemma rt_blocks (cb pe pd : bool) k : forall m p d r n1, chain_ok cb p -> length d = (16 * m)%nat -> Forall byte d -> (length r < 16)%nat -> (m < n1)%nat ->
  exists o p', drain Enc Dec n1 (mk_c cb true pe k p (d ++ r)) = (o, mk_c cb true pe k p' r) /\ length o = length d /\ chain_ok cb p' /\
  forall t n2, (m < n2)%nat -> (if pd then length t = 16%nat else length t = 0%nat) ->
    drain Enc Dec n2 (mk_c cb false pd k p (o ++ t)) = (d, mk_c cb false pd k p' t).
Proof.
  induction m as [|m IH]; intros p d r n1 CH LD BD LR LN.
  - destruct d as [|]; [|cbn in LD; lia]. destruct n1 as [|n1]; [lia|]. exists [], p. split; [|split; [auto|split; [auto|]]].
    + rewrite drain_S. unfold ready. cbn [pad enc pend app negb]. rewrite andb_false_r. destruct (Z.leb_spec 16 (zlen r)) as [X|X]; [unfold zlen in X; lia|auto].
    + intros t [|n2] LN2 LT; [lia|]. rewrite drain_S. unfold ready. cbn [pad enc pend app negb]. rewrite andb_true_r.
      destruct pd; [destruct (Z.leb_spec 17 (zlen t)) as [X|X]|destruct (Z.leb_spec 16 (zlen t)) as [X|X]]; auto; unfold zlen in X; lia.
  - destruct n1 as [|n1]; [lia|]. set (b := firstn 16 d). set (d' := skipn 16 d).
    assert (ED: d = b ++ d') by (unfold b, d'; rewrite firstn_skipn; auto).
    assert (LB: length b = 16%nat) by (apply firstn16; lia). assert (LD': length d' = (16 * m)%nat) by (unfold d'; rewrite skipn_length; lia).
    assert (BB: Forall byte b /\ Forall byte d') by (apply Forall_app; rewrite <- ED; auto). destruct BB as [BB BD'].
    destruct (block_rt cb pe pd k p b (d ++ r) [] CH LB BB) as (ob & p1 & E1 & LO & CH1 & _).
    destruct (IH p1 d' r n1 CH1 LD' BD' LR ltac:(lia)) as (o & p' & E2 & LOO & CH' & DEC).
    assert (F16: forall u : list Z, length u = 16%nat -> forall v, firstn 16 (u ++ v) = u /\ skipn 16 (u ++ v) = v).
    { intros u LU v. rewrite <- LU. rewrite firstn_app, firstn_all, Nat.sub_diag, firstn_O, app_nil_r. rewrite skipn_app, skipn_all, Nat.sub_diag. auto. }
    assert (ZG: forall u v : list Z, length u = 16%nat -> 16 + zlen v = zlen (u ++ v)) by (intros; unfold zlen; rewrite app_length; lia).
    exists (ob ++ o), p'. split; [|split; [|split; [auto|]]].
    + rewrite drain_S. unfold ready. cbn [pad enc pend negb]. rewrite andb_false_r. rewrite ED, <- app_assoc, <- (ZG b (d' ++ r) LB).
      destruct (Z.leb_spec 16 (16 + zlen (d' ++ r))) as [X|X]; [|pose proof (zlen_nonneg (d' ++ r)); lia].
      destruct (F16 b LB (d' ++ r)) as [-> ->].
      rewrite ED, <- app_assoc in E1. rewrite E1. cbn [cbc enc pad ckey prev]. rewrite E2. auto.
    + rewrite ED, !app_length, LOO. lia.
    + intros t n2 LN2 LT. destruct n2 as [|n2]; [lia|]. rewrite drain_S. unfold ready. cbn [pad enc pend negb]. rewrite andb_true_r. rewrite <- app_assoc, <- (ZG ob (o ++ t) LO).
      assert (RD: (if pd then 17 <=? 16 + zlen (o ++ t) else 16 <=? 16 + zlen (o ++ t)) = true).
      { pose proof (zlen_nonneg (o ++ t)). destruct pd; [|lia]. unfold zlen. rewrite app_length, LT. lia. }
      rewrite RD. destruct (F16 ob LO (o ++ t)) as [-> ->].
      destruct (block_rt cb pe pd k p b (d ++ r) (ob ++ o ++ t) CH LB BB) as (ob2 & p2 & E1' & _ & _ & DB). rewrite E1 in E1'. injection E1' as <- <-.
      rewrite DB. cbn [cbc enc pad ckey prev]. rewrite (DEC t n2 ltac:(lia) LT). rewrite <- ED. auto.
Qed.
End RoundTrip.

Lemma setup_pair name key iv p ce cd : setup name true key iv p = Ok ce -> setup name false key iv p = Ok cd ->
  exists cb k q, ce = mk_c cb true p k q [] /\ cd = mk_c cb false p k q [] /\ (cb = true -> length q = 16%nat /\ q = firstn 16 (iv ++ [0])).
Proof.
  unfold setup. destruct (keyLength name) as [n|]; [|discriminate]. destruct (negb _); [discriminate|]. destruct (_ <? n); [discriminate|].
  destruct (isCbc name).
  - destruct (Z.ltb_spec (zlen iv + 1) 16); [discriminate|]. assert (LQ: length (firstn 16 (iv ++ [0])) = 16%nat) by (rewrite firstn_length, app_length; change (length [0]) with 1%nat; unfold zlen in *; lia).
    remember (firstn 16 (iv ++ [0])) as q eqn:EQ. intros E1 E2. injection E1 as <-. injection E2 as <-. eexists _, _, _. split; [reflexivity|]. split; [reflexivity|]. auto.
  - intros E1 E2. injection E1 as <-. injection E2 as <-. eexists _, _, _. repeat split; auto; discriminate.
Qed.
Lemma chain_start cb q iv : (cb = true -> length q = 16%nat /\ q = firstn 16 (iv ++ [0])) -> Forall byte iv -> chain_ok cb q.
Proof.
  intros C B E. destruct (C E) as [L Q]. split; auto. rewrite Q. apply Forall_forall. intros x I.
  assert (I2: In x (iv ++ [0])) by (rewrite <- (firstn_skipn 16 (iv ++ [0])); apply in_app_iff; auto).
  apply in_app_iff in I2. destruct I2 as [I2|[<-|[]]]; [eapply Forall_forall in B; eauto|unfold byte; lia].
Qed.
(** Without padding: a message of a whole number of blocks is encoded to as many bytes, finalize adds nothing, and
    decoding them gives the message, however both are cut into pieces *)
Theorem C81_roundtrip Enc Dec name key iv ce cd l : cipher Enc Dec -> Forall byte iv -> Forall byte (concat l) -> (length (concat l) mod 16 = 0)%nat ->
  setup name true key iv false = Ok ce -> setup name false key iv false = Ok cd ->
  exists o, c_run Enc Dec ce l = (o, Some []) /\ length o = length (concat l) /\
  forall l2, concat l2 = o -> c_run Enc Dec cd l2 = (concat l, Some []).
Proof.
  intros CP BI BD M SE SD. destruct (setup_pair _ _ _ _ _ _ SE SD) as (cb & k & q & -> & -> & CH). pose proof (chain_start _ _ _ CH BI) as CO. clear CH SE SD.
  rewrite c_run_concat by reflexivity. rewrite c_update_def. unfold more. cbn [cbc enc pad ckey prev pend app length Nat.add].
  set (d := concat l) in *. assert (LD: length d = (16 * (length d / 16))%nat) by (pose proof (Nat.div_mod (length d) 16); lia).
  destruct (rt_blocks Enc Dec CP cb false false k (length d / 16) q d [] (S (length d)) CO LD BD ltac:(cbn; lia) ltac:(lia)) as (o & p' & E & LO & _ & DEC).
  rewrite app_nil_r in E. rewrite E. exists o. split; [reflexivity|]. split; [auto|]. intros l2 E2. rewrite c_run_concat by reflexivity. rewrite c_update_def. unfold more. cbn [cbc enc pad ckey prev pend app length Nat.add].
  rewrite E2. specialize (DEC [] (S (length o)) ltac:(lia) eq_refl). rewrite app_nil_r in DEC. rewrite DEC. reflexivity.
Qed.
(** With padding: any message comes back; the code is the next multiple of 16 above its length *)
Theorem C81_roundtrip_pad Enc Dec name key iv ce cd l : cipher Enc Dec -> Forall byte iv -> Forall byte (concat l) ->
  setup name true key iv true = Ok ce -> setup name false key iv true = Ok cd ->
  exists o f, c_run Enc Dec ce l = (o, Some f) /\ zlen (o ++ f) = 16 * (zlen (concat l) / 16 + 1) /\
  forall l2, concat l2 = o ++ f -> exists a b, c_run Enc Dec cd l2 = (a, Some b) /\ a ++ b = concat l.
Proof.
  intros CP BI BD SE SD. destruct (setup_pair _ _ _ _ _ _ SE SD) as (cb & k & q & -> & -> & CH). pose proof (chain_start _ _ _ CH BI) as CO. clear CH SE SD.
  rewrite c_run_concat by reflexivity. rewrite c_update_def. unfold more. cbn [cbc enc pad ckey prev pend app length Nat.add].
  set (d := concat l) in *. set (m := (length d / 16)%nat).
  assert (DM: length d = (16 * m + length d mod 16)%nat) by (unfold m; apply Nat.div_mod; lia). pose proof (Nat.mod_upper_bound (length d) 16 ltac:(lia)) as MU.
  set (d1 := firstn (16 * m) d). set (r := skipn (16 * m) d). assert (ED: d = d1 ++ r) by (unfold d1, r; rewrite firstn_skipn; auto).
  assert (L1: length d1 = (16 * m)%nat) by (unfold d1; rewrite firstn_length; lia). assert (LR: (length r < 16)%nat) by (unfold r; rewrite skipn_length; lia).
  assert (BB: Forall byte d1 /\ Forall byte r) by (apply Forall_app; rewrite <- ED; auto). destruct BB as [B1 BR].
  destruct (rt_blocks Enc Dec CP cb true true k m q d1 r (S (length d)) CO L1 B1 LR ltac:(lia)) as (o & p' & E & LO & CO' & DEC).
  rewrite <- ED in E. rewrite E. unfold c_final at 1. cbn [pad enc negb pend].
  set (pb := r ++ pkcs (zlen r)).
  assert (ZR: zlen r = Z.of_nat (length r)) by reflexivity.
  assert (LP: length pb = 16%nat) by (unfold pb, pkcs; rewrite app_length, repeat_length, ZR; lia).
  assert (BP: Forall byte pb) by (unfold pb; apply Forall_app; split; [auto|]; apply Forall_forall; intros x I; apply repeat_spec in I; subst; unfold byte; lia).
  destruct (block_rt Enc Dec CP cb true true k p' pb r [] CO' LP BP) as (f & p2 & EF & LF & _ & _).
  rewrite EF. cbn [fst]. exists o, f. split; [reflexivity|]. split.
  { unfold zlen. rewrite app_length, LO, L1, LF. replace (Z.of_nat (length d) / 16) with (Z.of_nat m); [lia|]. unfold m. rewrite Nat2Z.inj_div. reflexivity. }
  intros l2 E2. rewrite c_run_concat by reflexivity. rewrite c_update_def. unfold more. cbn [cbc enc pad ckey prev pend app length Nat.add]. rewrite E2.
  rewrite (DEC f (S (length (o ++ f)))) by (try rewrite app_length; auto; lia).
  unfold c_final. cbn [pad enc negb pend]. unfold zlen at 1. rewrite LF. change (Z.of_nat 16 =? 16) with true. cbv iota.
  destruct (block_rt Enc Dec CP cb true true k p' pb r f CO' LP BP) as (f2 & p3 & EF2 & _ & _ & DF). rewrite EF in EF2. injection EF2 as <- <-. rewrite DF. cbn [fst].
  assert (RP: pb = r ++ repeat (16 - zlen r) (16 - length r)) by (unfold pb, pkcs; rewrite ZR; do 2 f_equal; lia).
  assert (N15: nth 15 pb 0 = 16 - zlen r).
  { rewrite RP, app_nth2 by lia. apply nth_error_nth. rewrite nth_error_repeat by lia. auto. }
  rewrite N15. destruct (Z.leb_spec (16 - zlen r) 0); [lia|]. destruct (Z.ltb_spec 16 (16 - zlen r)); [lia|]. cbn [orb].
  replace (Z.to_nat (16 - zlen r)) with (16 - length r)%nat by lia. replace (16 - (16 - length r))%nat with (length r) by lia.
  rewrite RP. rewrite skipn_app, skipn_all, Nat.sub_diag, firstn_app, firstn_all, Nat.sub_diag, firstn_O, app_nil_r. cbn [skipn app].
  destruct (list_eq_dec Z.eq_dec _ _) as [_|X]; [|congruence]. exists d1, r. auto.
Qed.
(** The buffer: a call of update writes at most inBufSize + 16 bytes *)
Theorem C81_out_size Enc Dec name e key iv p c0 : cipher Enc Dec -> setup name e key iv p = Ok c0 ->
  forall l inp, let c := fold_left (fun c x => snd (c_update Enc Dec c x)) l c0 in zlen (fst (c_update Enc Dec c inp)) <= zlen inp + 16.
Proof.
  intros [C1 _] S l inp c. apply setup_start in S. destruct S as (P & _ & _ & _ & CH).
  set (ok := fun c : cst => cbc c = true -> length (prev c) = 16%nat).
  assert (BK: forall c b, ok c -> length b = 16%nat -> length (fst (block Enc Dec c b)) = 16%nat /\ ok (snd (block Enc Dec c b))).
  { clear - C1. intros c b O L. unfold block, ok in *. destruct (enc c); cbn [fst snd cbc prev]; destruct (cbc c) eqn:C.
    - pose proof (xor_len b (prev c) L (O eq_refl)) as X. destruct (C1 (ckey c) _ X). auto.
    - destruct (C1 (ckey c) _ L). split; auto; discriminate.
    - destruct (C1 (ckey c) _ L) as [_ D]. split; [apply xor_len; auto|auto].
    - destruct (C1 (ckey c) _ L). split; auto; discriminate. }
  assert (DR: forall n c, ok c -> (length (pend c) < n)%nat -> zlen (fst (drain Enc Dec n c)) <= zlen (pend c) /\ zlen (pend (snd (drain Enc Dec n c))) <= 16 /\ ok (snd (drain Enc Dec n c))).
  { clear - BK. induction n as [|n IH]; intros c O L; [lia|]. rewrite drain_S. destruct (ready c) eqn:R.
    - pose proof (ready_len _ R) as LR. unfold zlen in LR. destruct (BK c (firstn 16 (pend c)) O (firstn16 (pend c) ltac:(lia))) as [BL BO]. destruct (block Enc Dec c (firstn 16 (pend c))) as [o c']. cbn [fst snd] in *.
      specialize (IH (mk_c (cbc c') (enc c') (pad c') (ckey c') (prev c') (skipn 16 (pend c))) BO). cbn [pend] in IH. specialize (IH ltac:(rewrite skipn_length; lia)).
      destruct (drain Enc Dec n _) as [o2 c2]. cbn [fst snd] in *. destruct IH as (I1 & I2 & I3). rewrite zlen_skipn16 in I1 by (unfold zlen; lia). rewrite zlen_app. unfold zlen at 1. rewrite BL. repeat split; auto. lia.
    - cbn [fst snd]. repeat split; auto; [unfold zlen; cbn; lia|]. unfold ready in R. destruct (pad c && negb (enc c)); lia. }
  assert (INV: ok c /\ zlen (pend c) <= 16).
  { unfold c. clear inp. assert (I0: ok c0 /\ zlen (pend c0) <= 16) by (rewrite P; split; [exact CH|unfold zlen; cbn; lia]). clear c P CH. revert c0 I0. induction l as [|x l IH]; intros c0 [O L]; cbn [fold_left]; auto.
    apply IH. rewrite c_update_def. destruct (DR (S (length (pend c0) + length x)) (more c0 x)) as (_ & D2 & D3); auto. unfold more. cbn [pend]. rewrite app_length. lia. }
  destruct INV as [O L]. rewrite c_update_def. destruct (DR (S (length (pend c) + length inp)) (more c inp)) as (D1 & _ & _); auto; [unfold more; cbn [pend]; rewrite app_length; lia|].
  unfold more at 2 in D1. cbn [pend] in D1. rewrite zlen_app in D1. lia.
Qed.
(** setup: an unknown cipher or a key of the wrong length throws; otherwise it succeeds when the iv is not read (ECB) or has at least 15 bytes *)
Theorem C81_setup name e key iv p : zlen key < 2147483648 ->
  match cipherSize name with
  | None => setup name e key iv p = Exn
  | Some bits =>
    if zlen key * 8 =? bits then
      (if isCbc name && (zlen iv <? 15) then setup name e key iv p = UB
       else exists c, setup name e key iv p = Ok c /\ ckey c = key /\ (isCbc name = true -> 16 <= zlen iv -> prev c = firstn 16 iv))
    else setup name e key iv p = Exn
  end.
Proof.
  intros LK. pose proof (zlen_nonneg key).
  assert (T: to_int (zlen key) = zlen key) by (unfold to_int; rewrite Z.mod_small by lia; destruct (Z.ltb_spec (zlen key) 2147483648); lia).
  assert (KS: match cipherSize name with None => keyLength name = None | Some b => exists n, keyLength name = Some n /\ b = 8 * n end).
  { destruct name as [|q|q]; [eexists; split; reflexivity| |reflexivity]. destruct q as [[q|[q|q|]|]|[q|[q|q|]|]|]; cbn; auto; eexists; split; reflexivity. }
  unfold setup. rewrite T. destruct (cipherSize name) as [b|]; [|rewrite KS; auto]. destruct KS as (n & -> & ->).
  destruct (Z.eqb_spec (zlen key * 8) (8 * n)) as [E|E].
  - replace n with (zlen key) by lia. rewrite Z.eqb_refl, Z.ltb_irrefl. cbn [negb]. rewrite to_nat_zlen, firstn_all. destruct (isCbc name); cbn [andb].
    + destruct (Z.ltb_spec (zlen iv) 15); destruct (Z.ltb_spec (zlen iv + 1) 16); try lia; auto. eexists. split; [reflexivity|]. cbn [ckey prev]. split; auto. intros _ L.
      unfold zlen in L. rewrite firstn_app. replace (16 - length iv)%nat with 0%nat by lia. rewrite firstn_O, app_nil_r. auto.
    + eexists. split; [reflexivity|]. split; auto. discriminate.
  - destruct (Z.eqb_spec (zlen key) n); [lia|]. auto.
Qed.
(** a toy cipher: add the first byte of the key *)
Definition E0 (k b : list Z) : list Z := map (fun x => (x + nth 0 k 0) mod 256) b.
Definition D0 (k b : list Z) : list Z := map (fun x => (x - nth 0 k 0) mod 256) b.
Example C81_cipher_hyp : cipher E0 D0.
Proof.
  split; intros k b L; unfold E0, D0; rewrite ?map_length; auto. intros B. split.
  - apply Forall_forall. intros x I. apply in_map_iff in I. destruct I as (y & <- & _). unfold byte. apply Z.mod_pos_bound. lia.
  - rewrite map_map. rewrite <- (map_id b) at 2. apply map_ext_in. intros a I. eapply Forall_forall in B; [|eauto]. unfold byte in B.
    rewrite Zminus_mod_idemp_l. rewrite Z.add_simpl_r. apply Z.mod_small. auto.
Qed.
Example C81_cipher_ex : exists ce cd o f, setup 0 true (repeat 7 16) (repeat 1 16) true = Ok ce /\ setup 0 false (repeat 7 16) (repeat 1 16) true = Ok cd /\
  c_run E0 D0 ce [[1; 2; 3]; repeat 9 17] = (o, Some f) /\ zlen (o ++ f) = 32 /\ o ++ f <> [1; 2; 3] ++ repeat 9 17 /\
  c_run E0 D0 cd [o; f] = ([1; 2; 3] ++ repeat 9 13, Some (repeat 9 4)).
Proof. eexists _, _, _, _. split; [reflexivity|]. split; [reflexivity|]. split; [reflexivity|]. split; [reflexivity|]. split; [discriminate|reflexivity]. Qed.
(** ** Finding: Cipher::setup does not check the length of iv
    in the CBC modes EVP_CipherInit_ex reads 16 bytes at iv.c_str(): beyond the string for the default (empty) iv;
    one of 15 bytes stands for the one followed by 0, and the rest of a longer one is ignored *)
Theorem C81_iv_finding e p : setup 0 e (repeat 7 16) [] p = UB /\
  (forall iv key, length iv = 15%nat -> setup 0 e key iv p = setup 0 e key (iv ++ [0]) p) /\
  (forall iv x key, length iv = 16%nat -> setup 0 e key (iv ++ x) p = setup 0 e key iv p).
Proof.
  split; [reflexivity|]. unfold setup. cbn [keyLength isCbc Z.ltb Z.compare]. split; [intros iv key L|intros iv x key L]; destruct (negb _); auto; destruct (_ <? 16); auto.
  - replace (zlen iv + 1 <? 16) with false by (unfold zlen; rewrite L; reflexivity). replace (zlen (iv ++ [0]) + 1 <? 16) with false by (rewrite zlen_app; unfold zlen; rewrite L; reflexivity).
    do 2 f_equal. rewrite (firstn_app 16 (iv ++ [0])). rewrite app_length, L. cbn [length Nat.add Nat.sub firstn]. rewrite app_nil_r. auto.
  - pose proof (zlen_nonneg x). assert (zlen iv = 16) by (unfold zlen; rewrite L; reflexivity). rewrite zlen_app.
    destruct (Z.ltb_spec (zlen iv + zlen x + 1) 16); [lia|]. destruct (Z.ltb_spec (zlen iv + 1) 16); [lia|].
    do 2 f_equal. rewrite <- app_assoc. rewrite !(firstn_app 16 iv), L. reflexivity.
Qed.

Print Assumptions C81_sizes.
Print Assumptions C81_hash.
Print Assumptions C81_static.
Print Assumptions C81_union.
Print Assumptions C81_names.
Print Assumptions C81_hmac.
Print Assumptions C81_pieces.
Print Assumptions C81_roundtrip.
Print Assumptions C81_roundtrip_pad.
Print Assumptions C81_out_size.
Print Assumptions C81_setup.
Print Assumptions C81_hmac_key_finding.
Print Assumptions C81_iv_finding.
