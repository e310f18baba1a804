(** Properties C05, C06, C07 (base64.hpp). *)
Require Import Verif.Common Verif.Text Verif.StreamModel Verif.Base64Model Verif.Base64Spec Verif.Base64Proof.

(** the line sizes the encoder accepts *)
Definition line_size_ok (L : Z) : Prop := 0 <= L <= 128 /\ L mod 4 = 0.

(** C06: without a line size the output is the RFC 4648 text; with one, that text in lines.
    The result is never UB: outBuf is not overrun. *)
Theorem C06_encode_flat : forall data sched mode, bytes data ->
  EncodeToBase64 0 mode (mk_is data sched) = Ok (rfc4648 data).
Proof.
  intros. rewrite encode_pure by (auto; lia). rewrite ptext_flat; auto; lia.
Qed.
Theorem C06_encode_lines : forall data sched L mode, bytes data -> line_size_ok L -> 0 < L ->
  exists text, EncodeToBase64 L mode (mk_is data sched) = Ok text /\ laid_out L mode (rfc4648 data) text.
Proof.
  intros data sched L mode Hd [HL HL4] H0. rewrite encode_pure by auto. eexists. split; [reflexivity|].
  apply (ptext_lines L mode data H0 HL4 []); auto.
Qed.
(** [laid_out] determines the text *)
Theorem C06_layout_unique : forall L mode c t1 t2, 0 < L -> laid_out L mode c t1 -> laid_out L mode c t2 -> t1 = t2.
Proof.
  intros L mode c t1 t2 HL (l1 & C1 & L1 & ->) (l2 & C2 & L2 & ->). f_equal. f_equal. subst c.
  symmetry in C2. revert l2 L1 L2 C2.
  assert (POS: forall x l, lines_of L (x :: l) -> 1 <= zlen x <= L).
  { intros x [|y l] H; cbn in H; lia. }
  induction l1 as [|x1 l1 IH]; intros [|x2 l2] L1 L2 C; auto.
  - pose proof (POS _ _ L2). cbn [concat] in C. symmetry in C. apply app_eq_nil in C as [-> _]. cbn in H. lia.
  - pose proof (POS _ _ L1). cbn [concat] in C. apply app_eq_nil in C as [-> _]. cbn in H. lia.
  - assert (E: zlen x1 = zlen x2).
    { assert (T: zlen (concat (x1 :: l1)) = zlen (concat (x2 :: l2))) by congruence. cbn [concat] in T. rewrite !zlen_app in T.
      pose proof (POS _ _ L1). pose proof (POS _ _ L2).
      destruct l1 as [|y1 l1], l2 as [|y2 l2]; cbn [concat] in T; rewrite ?zlen_nil in T; auto; try lia.
      - destruct L2 as [L2 L2']. pose proof (POS _ _ L2'). rewrite zlen_app in T. pose proof (zlen_nonneg (concat l2)). lia.
      - destruct L1 as [L1 L1']. pose proof (POS _ _ L1'). rewrite zlen_app in T. pose proof (zlen_nonneg (concat l1)). lia.
      - destruct L1, L2. lia. }
    cbn [concat] in C. assert (E': length x1 = length x2) by (unfold zlen in E; lia).
    assert (x1 = x2) as <-. { rewrite <- (firstn_app_exact x1 (concat l1)), C, E'. apply firstn_app_exact. }
    apply app_inv_head in C. f_equal. apply IH; auto.
    + destruct l1; cbn in *; tauto.
    + destruct l2; cbn in *; tauto.
Qed.
(** other line sizes are refused *)
Theorem C06_bad_line_size : forall is L mode, 0 <= L -> ~ line_size_ok L -> EncodeToBase64 L mode is = Exn.
Proof.
  intros is L mode H0 H. unfold EncodeToBase64. destruct ((128 <? L) || negb (L mod 4 =? 0)) eqn:E; auto.
  exfalso. apply H. unfold line_size_ok. lia.
Qed.

Example C06_nonvacuous :
  EncodeToBase64 4 1 (mk_is (str "Hello") [1;2]) = Ok (str "SGVs" ++ [13;10] ++ str "bG8=" ++ [13;10]) /\
  rfc4648 (str "Hello") = str "SGVsbG8=" /\ line_size_ok 4.
Proof. split; [reflexivity|]. split; [reflexivity|]. unfold line_size_ok. split; [lia|reflexivity]. Qed.

(** C07: any history of write calls on one decoder, then flush *)
Fixpoint write_all (d : decoder) (chunks : list (list Z)) : res decoder :=
  match chunks with [] => Ok d | b :: r => let! d := dec_write d b in write_all d r end.
Theorem C07_decoder_writes : forall chunks, bytes (concat chunks) ->
  exists d, write_all dec_init chunks = Ok d /\ d_os (dec_flush d) = regroup (symbols_of (concat chunks)).
Proof.
  intros chunks Hb.
  assert (W: forall chunks d, write_all d chunks = dec_write d (concat chunks)).
  { clear. assert (A: forall a b d, dec_write d (a ++ b) = let! d := dec_write d a in dec_write d b).
    { induction a as [|c a IH]; intros b d; cbn [app dec_write bind]; auto. destruct (dec_char d c); cbn [bind]; auto. }
    induction chunks as [|c r IH]; intros d; cbn [write_all concat]; auto. rewrite A. destruct (dec_write d c); cbn [bind]; auto. }
  rewrite W. destruct (dec_write_pure (concat chunks) [] [] 0 0 ltac:(left; auto) Hb ltac:(cbn; lia)) as (os & b & _ & E1 & E2).
  unfold dec_init. rewrite E1. eexists. split; [reflexivity|]. rewrite flush_out. cbn [d_os d_buf]. rewrite E2. cbn [app].
  apply dsyms_regroup, symbols_range.
Qed.
Theorem C07_decode : forall text sched, bytes text -> DecodeFromBase64 (mk_is text sched) = Ok (regroup (symbols_of text)).
Proof.
  intros text sched Hb. unfold DecodeFromBase64. cbn [is_data].
  destruct (dec_loop_pure (S (length text)) [] [] 0 0 text sched ltac:(left; auto) Hb ltac:(cbn; lia) ltac:(lia)) as (os & b & _ & E1 & E2).
  unfold dec_init. rewrite E1. cbn [bind]. rewrite flush_out. cbn [d_os d_buf]. rewrite E2. cbn [app].
  rewrite dsyms_regroup by apply symbols_range. reflexivity.
Qed.
(** only the alphabet characters and their order matter *)
Theorem C07_decode_foreign : forall t1 t2 s1 s2, bytes t1 -> bytes t2 ->
  filter (fun c => match symbol_value c with Some _ => true | None => false end) t1 =
  filter (fun c => match symbol_value c with Some _ => true | None => false end) t2 ->
  DecodeFromBase64 (mk_is t1 s1) = DecodeFromBase64 (mk_is t2 s2).
Proof.
  intros t1 t2 s1 s2 H1 H2 F. rewrite !C07_decode by auto. do 2 f_equal.
  assert (G: forall t, symbols_of t = symbols_of (filter (fun c => match symbol_value c with Some _ => true | None => false end) t)).
  { induction t as [|c t IH]; auto. unfold symbols_of in *. cbn [flat_map filter]. destruct (symbol_value c) eqn:E; cbn [flat_map]; [rewrite E|]; rewrite IH; auto. }
  rewrite (G t1), (G t2), F. auto.
Qed.

Example C07_nonvacuous :
  DecodeFromBase64 (mk_is (str "S-G  Vs" ++ [13;10;200] ++ str "bG8=") [3;1]) = Ok (str "Hello") /\
  (exists d, write_all dec_init [str "S"; str "GVsb"; []; str "G8="] = Ok d /\ d_os (dec_flush d) = str "Hello").
Proof. split; [reflexivity|]. eexists. split; reflexivity. Qed.

(** finding: the pad character does not end a group, so two padded texts one after the other do not
    decode to the concatenation of their contents *)
Theorem C07_pad_finding :
  DecodeFromBase64 (mk_is (str "QQ==" ++ str "QUI=") []) = Ok (str "A" ++ [4; 20]) /\
  DecodeFromBase64 (mk_is (str "QQ==") []) = Ok (str "A") /\
  DecodeFromBase64 (mk_is (str "QUI=") []) = Ok (str "AB").
Proof. repeat split; reflexivity. Qed.

(** C05: decode after encode, with independent chunkings on both sides *)
Theorem C05_round_trip : forall data L mode s1 s2, bytes data -> line_size_ok L ->
  exists text, EncodeToBase64 L mode (mk_is data s1) = Ok text /\ DecodeFromBase64 (mk_is text s2) = Ok data.
Proof.
  intros data L mode s1 s2 Hd HL. destruct (Z.eq_dec L 0) as [-> |Hn].
  - exists (rfc4648 data). rewrite C06_encode_flat by auto. split; auto. rewrite C07_decode by (apply bytes_rfc; auto).
    rewrite regroup_rfc; auto.
  - destruct (C06_encode_lines data s1 L mode Hd HL) as (text & E & Lo); [destruct HL; lia|]. exists text. split; auto.
    rewrite C07_decode by (eapply bytes_layout; eauto; apply bytes_rfc; auto).
    rewrite (symbols_of_layout _ _ _ _ Lo), regroup_rfc; auto.
Qed.

Example C05_nonvacuous : line_size_ok 76 /\ bytes (str "Hello").
Proof. unfold line_size_ok. repeat constructor; unfold is_byte; cbn; lia. Qed.

Print Assumptions C05_round_trip.
Print Assumptions C06_encode_lines.
Print Assumptions C06_layout_unique.
Print Assumptions C07_decoder_writes.
Print Assumptions C07_decode_foreign.
