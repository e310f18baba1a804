Require Import Verif.Common Verif.Text Verif.StreamModel Verif.StreamProps Verif.EndianProps Verif.Base64Model Verif.Base64Spec.

(** ** tables *)
Lemma enc_tbl_symbol v : 0 <= v < 64 -> rd enc_tbl v = Ok (symbol v).
Proof.
  intros H. assert (A: forallb (fun n => match rd enc_tbl (Z.of_nat n) with Ok c => c =? symbol (Z.of_nat n) | _ => false end) (seq 0 64) = true) by reflexivity.
  rewrite forallb_forall in A. specialize (A (Z.to_nat v)). rewrite Z2Nat.id in A by lia.
  rewrite in_seq in A. specialize (A ltac:(lia)). destruct (rd enc_tbl v); try discriminate. f_equal. lia.
Qed.
Lemma dec_tbl_value c : is_byte c -> rd dec_tbl c = Ok (match symbol_value c with Some v => v | None => S_ end).
Proof.
  intros H. assert (A: forallb (fun n => match rd dec_tbl (Z.of_nat n) with Ok t => t =? match symbol_value (Z.of_nat n) with Some v => v | None => S_ end | _ => false end) (seq 0 256) = true) by reflexivity.
  rewrite forallb_forall in A. specialize (A (Z.to_nat c)). unfold is_byte in H. rewrite Z2Nat.id in A by lia.
  rewrite in_seq in A. specialize (A ltac:(lia)). destruct (rd dec_tbl c); try discriminate. f_equal. lia.
Qed.
Lemma symbol_value_symbol v : 0 <= v < 64 -> symbol_value (symbol v) = Some v.
Proof.
  intros H. unfold symbol.
  destruct (v <? 26) eqn:?; [|destruct (v <? 52) eqn:?; [|destruct (v <? 62) eqn:?; [|destruct (v =? 62) eqn:?]]];
  unfold symbol_value; repeat match goal with
  | |- context [if ?b then _ else _] => destruct b eqn:?
  end; try lia; f_equal; lia.
Qed.
Lemma symbol_value_range c v : symbol_value c = Some v -> 0 <= v < 64.
Proof.
  unfold symbol_value. repeat match goal with |- context [if ?b then _ else _] => destruct b eqn:? end; intros E; try discriminate; injection E as <-; lia.
Qed.
Lemma symbol_byte v : 0 <= v < 64 -> is_byte (symbol v).
Proof. unfold symbol, is_byte. intros H. repeat match goal with |- context [if ?b then _ else _] => destruct b eqn:? end; lia. Qed.

Lemma cons_eq {A} (a b : A) l m : a = b -> l = m -> a :: l = b :: m.
Proof. congruence. Qed.
Lemma sym_eq a b : a = b -> symbol a = symbol b.
Proof. congruence. Qed.
Ltac syms := repeat (apply cons_eq; [first [reflexivity | apply sym_eq; lia | lia] |]); auto.

(** ** encoder as a pure state machine *)
Definition pst := (Z * Z * Z)%type. (* remain, idx, pos *)
Definition eol_at L mode pos := if negb (L =? 0) && (pos =? L) then end_of_line mode else [].
Definition pos_at L pos := if negb (L =? 0) && (pos =? L) then 0 else pos.
Definition pbyte L mode (s : pst) c : pst * list Z :=
  let '(r, i, p) := s in
  if i =? 0 then ((c mod 4 * 16, 1, pos_at L (p + 1)), symbol (c / 4) :: eol_at L mode (p + 1))
  else if i =? 1 then ((c mod 16 * 4, 2, pos_at L (p + 1)), symbol (r + c / 16) :: eol_at L mode (p + 1))
  else ((r, 0, pos_at L (p + 2)), symbol (r + c / 64) :: symbol (c mod 64) :: eol_at L mode (p + 2)).
Fixpoint pbytes L mode s l : pst * list Z :=
  match l with
  | [] => (s, [])
  | c :: t => let (s, o) := pbyte L mode s c in let (s, o') := pbytes L mode s t in (s, o ++ o')
  end.
Definition pinv (s : pst) : Prop :=
  let '(r, i, p) := s in
  (i = 0 \/ (i = 1 /\ exists k, r = 16 * k /\ 0 <= k < 4) \/ (i = 2 /\ exists k, r = 4 * k /\ 0 <= k < 16)).

Lemma pbyte_inv L mode s c : pinv s -> is_byte c -> pinv (fst (pbyte L mode s c)).
Proof.
  destruct s as [[r i] p]. unfold pinv, pbyte, is_byte. intros H Hc.
  destruct (i =? 0) eqn:E0; [|destruct (i =? 1) eqn:E1]; cbn [fst].
  - right; left. split; auto. exists (c mod 4). lia.
  - right; right. split; auto. exists (c mod 16). lia.
  - auto.
Qed.
Lemma pbytes_inv L mode l : forall s, pinv s -> bytes l -> pinv (fst (pbytes L mode s l)).
Proof.
  induction l as [|c l IH]; intros s Hs Hl; auto. inversion Hl; subst. cbn [pbytes].
  pose proof (pbyte_inv L mode s c Hs H1). destruct (pbyte L mode s c) as [s1 o1]. cbn [fst] in *.
  specialize (IH s1 H H2). destruct (pbytes L mode s1 l). auto.
Qed.
Lemma pbytes_app L mode a : forall s b,
  pbytes L mode s (a ++ b) = let (s1, o1) := pbytes L mode s a in let (s2, o2) := pbytes L mode s1 b in (s2, o1 ++ o2).
Proof.
  induction a as [|c a IH]; intros s b; cbn [app pbytes].
  - destruct (pbytes L mode s b). reflexivity.
  - destruct (pbyte L mode s c) as [s1 o1]. rewrite IH. destruct (pbytes L mode s1 a) as [s2 o2].
    destruct (pbytes L mode s2 b) as [s3 o3]. rewrite app_assoc. reflexivity.
Qed.

Lemma put_ok cap b c : zlen b < cap -> put cap b c = Ok (b ++ [c]).
Proof. intros H. unfold put. destruct (cap <=? zlen b) eqn:E; [lia|auto]. Qed.
Lemma eol_len mode : 0 <= zlen (end_of_line mode) <= 2.
Proof. unfold end_of_line. destruct (mode =? 2), (mode =? 1); cbn; lia. Qed.
Lemma addEndLine_ok cap b mode : zlen b + 2 <= cap -> addEndLine cap b mode = Ok (b ++ end_of_line mode).
Proof.
  intros H. unfold addEndLine, end_of_line. destruct (mode =? 2); [rewrite app_nil_r; auto|].
  destruct (mode =? 1); cbn [bind].
  - rewrite put_ok by lia. cbn [bind]. rewrite put_ok by (rewrite zlen_app; cbn; lia). rewrite <- app_assoc. auto.
  - rewrite put_ok by lia. auto.
Qed.

Lemma bits4 c : 0 <= c -> Z.shiftl (Z.land c 3) 4 = c mod 4 * 16.
Proof. intros. change 3 with (Z.ones 2). rewrite Z.land_ones, Z.shiftl_mul_pow2 by lia. reflexivity. Qed.
Lemma bits16 c : 0 <= c -> Z.shiftl (Z.land c 15) 2 = c mod 16 * 4.
Proof. intros. change 15 with (Z.ones 4). rewrite Z.land_ones, Z.shiftl_mul_pow2 by lia. reflexivity. Qed.
Lemma bits_a t : 0 <= t -> Z.shiftl (Z.land t 15) 4 = t mod 16 * 16.
Proof. intros. change 15 with (Z.ones 4). rewrite Z.land_ones, Z.shiftl_mul_pow2 by lia. reflexivity. Qed.
Lemma bits_b t : 0 <= t -> Z.shiftl (Z.land t 3) 6 = t mod 4 * 64.
Proof. intros. change 3 with (Z.ones 2). rewrite Z.land_ones, Z.shiftl_mul_pow2 by lia. reflexivity. Qed.
Lemma lor_low k n x : 0 <= n -> 0 <= k -> 0 <= x < 2 ^ n -> Z.lor (2 ^ n * k) x = 2 ^ n * k + x.
Proof.
  intros. rewrite Z.lor_comm, (Z.mul_comm (2 ^ n) k), <- Z.shiftl_mul_pow2 by lia. rewrite lor_add by lia.
  rewrite Z.shiftl_mul_pow2 by lia. lia.
Qed.

Lemma enc_byte_pure L mode r i p b c : pinv (r, i, p) -> is_byte c -> zlen b + 4 <= 4096 ->
  enc_byte L mode (mk_enc r i p b) c =
   (let '((r', i', p'), o) := pbyte L mode (r, i, p) c in Ok (mk_enc r' i' p' (b ++ o))) /\ zlen (snd (pbyte L mode (r, i, p) c)) <= 4.
Proof.
  intros Hi Hc Hb. unfold is_byte in Hc.
  assert (EL := eol_len mode).
  assert (EO: forall q, 0 <= zlen (eol_at L mode q) <= 2) by (intros q; unfold eol_at; destruct (_ && _); cbn; lia).
  assert (FIN: forall r0 i0 p0 b0, zlen b0 + 2 <= 4096 ->
     (if negb (L =? 0) && (p0 =? L) then let! b1 := addEndLine 4096 b0 mode in Ok (mk_enc r0 i0 0 b1) else Ok (mk_enc r0 i0 p0 b0))
     = Ok (mk_enc r0 i0 (pos_at L p0) (b0 ++ eol_at L mode p0))).
  { intros. unfold pos_at, eol_at. destruct (negb (L =? 0) && (p0 =? L)).
    - rewrite addEndLine_ok by lia. reflexivity.
    - rewrite app_nil_r. reflexivity. }
  unfold enc_byte, pbyte. cbn [e_remain e_idx e_pos e_buf]. rewrite !Z.shiftr_div_pow2 by lia.
  change (2 ^ 2) with 4. change (2 ^ 4) with 16. change (2 ^ 6) with 64.
  destruct (i =? 0) eqn:E0; [|destruct (i =? 1) eqn:E1].
  - rewrite enc_tbl_symbol by lia. cbn [bind]. rewrite put_ok by lia. cbn [bind e_remain e_idx e_pos e_buf].
    rewrite bits4 by lia. rewrite FIN by (rewrite zlen_app; cbn; lia). rewrite <- app_assoc. cbn [app snd].
    split; [reflexivity|]. rewrite zlen_cons. specialize (EO (p + 1)). lia.
  - destruct Hi as [Hi|[(_ & k & -> & Hk)|(Hi & _)]]; [lia| |lia].
    replace (Z.lor (16 * k) (c / 16)) with (16 * k + c / 16) by (symmetry; apply (lor_low k 4); simpl; lia).
    rewrite enc_tbl_symbol by lia. cbn [bind]. rewrite put_ok by lia. cbn [bind e_remain e_idx e_pos e_buf].
    rewrite bits16 by lia. rewrite FIN by (rewrite zlen_app; cbn; lia). rewrite <- app_assoc. cbn [app snd].
    split; [reflexivity|]. rewrite zlen_cons. specialize (EO (p + 1)). lia.
  - destruct Hi as [Hi|[(Hi & _)|(_ & k & -> & Hk)]]; [lia|lia|].
    replace (Z.lor (4 * k) (c / 64)) with (4 * k + c / 64) by (symmetry; apply (lor_low k 2); simpl; lia).
    change (Z.land c 63) with (Z.land c (Z.ones 6)). rewrite Z.land_ones by lia. change (2 ^ 6) with 64.
    rewrite enc_tbl_symbol by lia. cbn [bind]. rewrite put_ok by lia. cbn [bind].
    rewrite enc_tbl_symbol by lia. cbn [bind]. rewrite put_ok by (rewrite zlen_app; cbn; lia). cbn [bind e_remain e_idx e_pos e_buf].
    rewrite FIN by (rewrite !zlen_app; cbn; lia). rewrite <- !app_assoc. cbn [app snd].
    split; [reflexivity|]. rewrite !zlen_cons. specialize (EO (p + 2)). lia.
Qed.

Lemma enc_bytes_pure L mode l : forall r i p b, pinv (r, i, p) -> bytes l -> zlen b + 4 * zlen l <= 4096 ->
  enc_bytes L mode (mk_enc r i p b) l = let '((r', i', p'), o) := pbytes L mode (r, i, p) l in Ok (mk_enc r' i' p' (b ++ o)).
Proof.
  induction l as [|c l IH]; intros r i p b Hi Hl Hb.
  - cbn. rewrite app_nil_r. reflexivity.
  - inversion Hl as [|? ? Hc Hl']; subst. rewrite zlen_cons in Hb. pose proof (zlen_nonneg l).
    destruct (enc_byte_pure L mode r i p b c Hi Hc ltac:(lia)) as [E1 E2].
    pose proof (pbyte_inv L mode (r, i, p) c Hi Hc) as I.
    cbn [enc_bytes pbytes]. rewrite E1. destruct (pbyte L mode (r, i, p) c) as [[[r1 i1] p1] o1]. cbn [bind fst snd] in *.
    rewrite IH; auto; [|rewrite zlen_app; lia]. destruct (pbytes L mode (r1, i1, p1) l) as [[[r2 i2] p2] o2].
    rewrite app_assoc. reflexivity.
Qed.

Lemma enc_loop_pure L mode : forall fuel r i p os data sch, pinv (r, i, p) -> bytes data -> (length data < fuel)%nat ->
  enc_loop fuel L mode (mk_enc r i p []) os (mk_is data sch) =
  let '((r', i', p'), o) := pbytes L mode (r, i, p) data in Ok (mk_enc r' i' p' [], os ++ o).
Proof.
  induction fuel; intros r i p os data sch Hi Hd Hf; [lia|]. cbn [enc_loop].
  destruct (readSome_spec 1024 (mk_is data sch) ltac:(lia)) as (n & E & Hn1 & Hn2 & Hn3). rewrite E. cbn [is_data is_sched] in *.
  destruct (zlen (firstn n data) =? 0) eqn:E0.
  - rewrite zlen_firstn_le in E0 by auto. destruct data; [|exfalso; assert (1 <= n)%nat by (apply Hn3; congruence); lia].
    cbn. rewrite app_nil_r. auto.
  - rewrite zlen_firstn_le in E0 by auto.
    rewrite enc_bytes_pure; auto; [| apply bytes_firstn; auto | rewrite zlen_nil, zlen_firstn_le by auto; lia].
    replace (pbytes L mode (r, i, p) data) with (pbytes L mode (r, i, p) (firstn n data ++ skipn n data)) by (rewrite firstn_skipn; auto).
    rewrite pbytes_app.
    pose proof (pbytes_inv L mode (firstn n data) (r, i, p) Hi ltac:(apply bytes_firstn; auto)) as I.
    destruct (pbytes L mode (r, i, p) (firstn n data)) as [[[r1 i1] p1] o1]. cbn [bind e_remain e_idx e_pos e_buf fst] in *.
    rewrite IHfuel; auto; [| apply bytes_skipn'; auto | rewrite skipn_length; lia].
    destruct (pbytes L mode (r1, i1, p1) (skipn n data)) as [[[r2 i2] p2] o2]. cbn [app]. rewrite app_assoc. reflexivity.
Qed.

(** the text produced from state (0, 0, p) *)
Definition ptail L mode (s : pst) : list Z :=
  let '(r, i, p) := s in
  let pad := if 0 <? i then (if i =? 1 then [symbol r; 61; 61] else [symbol r; 61]) else [] in
  pad ++ (if negb (L =? 0) && (0 <? p + zlen pad) then end_of_line mode else []).
Definition ptext L mode p data := let (s, o) := pbytes L mode (0, 0, p) data in o ++ ptail L mode s.

Lemma encode_pure L mode data sch : bytes data -> 0 <= L <= 128 -> L mod 4 = 0 ->
  EncodeToBase64 L mode (mk_is data sch) = Ok (ptext L mode 0 data).
Proof.
  intros Hd HL HL4. unfold EncodeToBase64, ptext. destruct ((128 <? L) || negb (L mod 4 =? 0)) eqn:E; [lia|].
  cbn [is_data]. rewrite enc_loop_pure; auto; [|left; auto].
  pose proof (pbytes_inv L mode data (0, 0, 0) ltac:(left; auto) Hd) as I.
  destruct (pbytes L mode (0, 0, 0) data) as [[[r i] p] o]. cbn [fst bind app] in *. cbn [e_remain e_idx e_pos e_buf].
  unfold ptail. cbv zeta.
  assert (EE: forall b, zlen b <= 10 -> addEndLine 4096 b mode = Ok (b ++ end_of_line mode)) by (intros; apply addEndLine_ok; lia).
  destruct I as [-> |[(-> & k & -> & Hk)|(-> & k & -> & Hk)]].
  - replace (0 <? 0) with false by reflexivity. cbn [bind e_remain e_idx e_pos e_buf zlen length app]. rewrite Z.add_0_r.
    destruct (negb (L =? 0) && (0 <? p)); [rewrite EE by (cbn; lia)|]; reflexivity.
  - replace (0 <? 1) with true by reflexivity. replace (1 =? 1) with true by reflexivity. rewrite enc_tbl_symbol by lia. cbn [bind].
    rewrite put_ok by (cbn; lia). cbn [bind app]. rewrite put_ok by (cbn; lia). cbn [bind app]. rewrite put_ok by (cbn; lia).
    cbn [bind app e_remain e_idx e_pos e_buf]. change (zlen [symbol (16 * k); 61; 61]) with 3.
    destruct (negb (L =? 0) && (0 <? p + 3)); [rewrite EE by (cbn; lia)|]; reflexivity.
  - replace (0 <? 2) with true by reflexivity. replace (2 =? 1) with false by reflexivity. rewrite enc_tbl_symbol by lia. cbn [bind].
    rewrite put_ok by (cbn; lia). cbn [bind app]. rewrite put_ok by (cbn; lia).
    cbn [bind app e_remain e_idx e_pos e_buf]. change (zlen [symbol (4 * k); 61]) with 2.
    destruct (negb (L =? 0) && (0 <? p + 2)); [rewrite EE by (cbn; lia)|]; reflexivity.
Qed.

Lemma list3_ind {A} (P : list A -> Prop) : P [] -> (forall a, P [a]) -> (forall a b, P [a; b]) ->
  (forall a b c r, P r -> P (a :: b :: c :: r)) -> forall l, P l.
Proof.
  intros P0 P1 P2 P3. assert (G: forall n l, (length l < n)%nat -> P l).
  { induction n; intros l Hl; [lia|]. destruct l as [|a [|b [|c r]]]; auto. apply P3. apply IHn. simpl in Hl. lia. }
  intros l. eapply G. apply Nat.lt_succ_diag_r.
Qed.

(** one whole group from a line position that is a multiple of 4 *)
Lemma group L mode r0 p a b c : is_byte a -> is_byte b -> is_byte c -> L mod 4 = 0 -> p mod 4 = 0 -> (L = 0 \/ 0 <= p < L) ->
  exists r', pbytes L mode (r0, 0, p) [a; b; c] = ((r', 0, pos_at L (p + 4)), firstn 4 (rfc4648 [a; b; c]) ++ eol_at L mode (p + 4)).
Proof.
  intros Ha Hb Hc HL Hp Hlt. unfold is_byte in *.
  assert (N: forall q, q mod 4 <> 0 -> pos_at L q = q /\ eol_at L mode q = []).
  { intros q Hq. unfold pos_at, eol_at. destruct (negb (L =? 0) && (q =? L)) eqn:E; auto. exfalso. lia. }
  cbn [pbytes]. unfold pbyte at 1. replace (0 =? 0) with true by reflexivity.
  destruct (N (p + 1)) as [-> ->]; [lia|]. unfold pbyte at 1. replace (1 =? 0) with false by reflexivity. replace (1 =? 1) with true by reflexivity.
  destruct (N (p + 1 + 1)) as [-> ->]; [lia|]. unfold pbyte at 1. replace (2 =? 0) with false by reflexivity. replace (2 =? 1) with false by reflexivity.
  replace (p + 1 + 1 + 2) with (p + 4) by lia. eexists. f_equal. cbn [app rfc4648 firstn]. cbv zeta.
  syms. apply app_nil_r.
Qed.

Lemma ptext_group L mode r0 p a b c l : is_byte a -> is_byte b -> is_byte c -> L mod 4 = 0 -> p mod 4 = 0 -> (L = 0 \/ 0 <= p < L) ->
  (forall r1, (let (s, o) := pbytes L mode (r1, 0, pos_at L (p + 4)) l in o ++ ptail L mode s) = ptext L mode (pos_at L (p + 4)) l) ->
  (let (s, o) := pbytes L mode (r0, 0, p) (a :: b :: c :: l) in o ++ ptail L mode s) = firstn 4 (rfc4648 [a; b; c]) ++ eol_at L mode (p + 4) ++ ptext L mode (pos_at L (p + 4)) l.
Proof.
  intros Ha Hb Hc HL Hp Hlt IH. change (a :: b :: c :: l) with ([a; b; c] ++ l). rewrite pbytes_app.
  destruct (group L mode r0 p a b c Ha Hb Hc HL Hp Hlt) as (r' & ->). specialize (IH r').
  destruct (pbytes L mode (r', 0, pos_at L (p + 4)) l) as [s o]. rewrite <- IH, <- !app_assoc. reflexivity.
Qed.

(** remain is irrelevant at idx = 0 *)
Lemma ptext_remain L mode data : forall p r, (let (s, o) := pbytes L mode (r, 0, p) data in o ++ ptail L mode s) = ptext L mode p data.
Proof.
  intros p r. unfold ptext. destruct data as [|c data].
  - reflexivity.
  - reflexivity.
Qed.

Lemma ptext_cons3 L mode p a b c l : is_byte a -> is_byte b -> is_byte c -> L mod 4 = 0 -> p mod 4 = 0 -> (L = 0 \/ 0 <= p < L) ->
  ptext L mode p (a :: b :: c :: l) = firstn 4 (rfc4648 [a; b; c]) ++ eol_at L mode (p + 4) ++ ptext L mode (pos_at L (p + 4)) l.
Proof. intros. rewrite <- (ptext_remain L mode _ p 0). apply ptext_group; auto. intros. apply ptext_remain. Qed.

Lemma rfc_cons3 a b c l : rfc4648 (a :: b :: c :: l) = firstn 4 (rfc4648 [a; b; c]) ++ rfc4648 l.
Proof. reflexivity. Qed.

Lemma ptext_1 L mode p a : is_byte a -> L mod 4 = 0 -> p mod 4 = 0 -> 0 <= p -> 
  ptext L mode p [a] = rfc4648 [a] ++ (if negb (L =? 0) then end_of_line mode else []).
Proof.
  intros Ha HL Hp Hp0. unfold ptext, is_byte in *. cbn [pbytes]. unfold pbyte. replace (0 =? 0) with true by reflexivity.
  unfold eol_at, pos_at. destruct (negb (L =? 0) && (p + 1 =? L)) eqn:E; [exfalso; lia|]. cbn [app]. unfold ptail.
  replace (0 <? 1) with true by reflexivity. replace (1 =? 1) with true by reflexivity. cbv zeta.
  change (zlen [symbol (a mod 4 * 16); 61; 61]) with 3. replace (0 <? p + 1 + 3) with true by lia. rewrite andb_true_r.
  cbn [rfc4648 app]. syms.
Qed.
Lemma ptext_2 L mode p a b : is_byte a -> is_byte b -> L mod 4 = 0 -> p mod 4 = 0 -> 0 <= p -> 
  ptext L mode p [a; b] = rfc4648 [a; b] ++ (if negb (L =? 0) then end_of_line mode else []).
Proof.
  intros Ha Hb HL Hp Hp0. unfold ptext, is_byte in *. cbn [pbytes]. unfold pbyte at 1. replace (0 =? 0) with true by reflexivity.
  unfold eol_at, pos_at. destruct (negb (L =? 0) && (p + 1 =? L)) eqn:E; [exfalso; lia|]. cbn [app].
  unfold pbyte. replace (1 =? 0) with false by reflexivity. replace (1 =? 1) with true by reflexivity.
  unfold eol_at, pos_at. destruct (negb (L =? 0) && (p + 1 + 1 =? L)) eqn:E2; [exfalso; lia|]. cbn [app]. unfold ptail.
  replace (0 <? 2) with true by reflexivity. replace (2 =? 1) with false by reflexivity. cbv zeta.
  change (zlen [symbol (b mod 16 * 4); 61]) with 2. replace (0 <? p + 1 + 1 + 2) with true by lia. rewrite andb_true_r.
  cbn [rfc4648 app]. syms.
Qed.

Lemma rfc3_len a b c : zlen (firstn 4 (rfc4648 [a; b; c])) = 4.
Proof. reflexivity. Qed.

(** no line breaks *)
Lemma ptext_flat mode data : forall p, bytes data -> p mod 4 = 0 -> 0 <= p -> ptext 0 mode p data = rfc4648 data.
Proof.
  induction data using list3_ind; intros p Hd Hp Hp0.
  - reflexivity.
  - inversion Hd; subst. rewrite ptext_1 by auto. apply app_nil_r.
  - inversion Hd as [|? ? Ha Hd']; inversion Hd'; subst. rewrite ptext_2 by auto. apply app_nil_r.
  - inversion Hd as [|? ? Ha Hd']; inversion Hd' as [|? ? Hb Hd'']; inversion Hd''; subst.
    rewrite ptext_cons3, rfc_cons3 by auto. change (eol_at 0 mode (p + 4)) with (@nil Z). change (pos_at 0 (p + 4)) with (p + 4).
    cbn [app]. rewrite IHdata; auto; lia.
Qed.

(** layout, with a current partial line [pre] *)
Lemma ptext_lines L mode data : 0 < L -> L mod 4 = 0 -> forall pre, bytes data -> zlen pre mod 4 = 0 -> zlen pre < L ->
  laid_out L mode (pre ++ rfc4648 data) (pre ++ ptext L mode (zlen pre) data).
Proof.
  intros HL HL4. assert (NL: negb (L =? 0) = true) by lia.
  induction data using list3_ind; intros pre Hd Hp Hlt; pose proof (zlen_nonneg pre) as Hp0.
  - unfold ptext. cbn [pbytes rfc4648 ptail app]. change (0 <? 0) with false. cbv zeta. cbn [app]. rewrite NL, zlen_nil, Z.add_0_r, app_nil_r.
    cbn [andb]. destruct (0 <? zlen pre) eqn:E.
    + exists [pre]. cbn [concat map lines_of]. rewrite !app_nil_r. repeat split; auto; lia.
    + destruct pre; [|rewrite zlen_cons in E; pose proof (zlen_nonneg pre); lia]. exists []. cbn. auto.
  - inversion Hd; subst. rewrite ptext_1 by auto. rewrite NL.
    exists [pre ++ rfc4648 [a]]. cbn [concat map lines_of]. rewrite !app_nil_r. rewrite zlen_app. change (zlen (rfc4648 [a])) with 4.
    rewrite app_assoc. repeat split; lia.
  - inversion Hd as [|? ? Ha Hd']; inversion Hd'; subst. rewrite ptext_2 by auto. rewrite NL.
    exists [pre ++ rfc4648 [a; b]]. cbn [concat map lines_of]. rewrite !app_nil_r. rewrite zlen_app. change (zlen (rfc4648 [a; b])) with 4.
    rewrite app_assoc. repeat split; lia.
  - inversion Hd as [|? ? Ha Hd']; inversion Hd' as [|? ? Hb Hd'']; inversion Hd''; subst.
    rewrite ptext_cons3, rfc_cons3 by (auto; lia).
    set (g := firstn 4 (rfc4648 [a; b; c])). assert (Hg: zlen g = 4) by apply rfc3_len. clearbody g.
    unfold pos_at, eol_at. rewrite NL. cbn [andb]. destruct (zlen pre + 4 =? L) eqn:E.
    + destruct (IHdata [] ltac:(auto) ltac:(reflexivity) ltac:(auto)) as (lines & C & Lo & T). cbn [app] in C, T. rewrite zlen_nil in T.
      exists ((pre ++ g) :: lines). cbn [concat map]. rewrite C, <- T. rewrite <- !app_assoc. split; [auto|]. split; [|auto].
      cbn [lines_of]. rewrite zlen_app. destruct lines; [lia|split; [lia|auto]].
    + destruct (IHdata (pre ++ g) ltac:(auto)) as (lines & C & Lo & T).
      { rewrite zlen_app, Hg. lia. } { rewrite zlen_app, Hg. lia. }
      exists lines. rewrite zlen_app, Hg in T. rewrite <- !app_assoc in C, T. cbn [app]. auto.
Qed.

(** ** decoder *)
Definition dst := (Z * Z)%type. (* idx, cur *)
Definition dinv (s : dst) : Prop := let '(i, cur) := s in
  i = 0 \/ (i = 1 /\ exists k, cur = 4 * k /\ 0 <= k < 64) \/ (i = 2 /\ exists k, cur = 16 * k /\ 0 <= k < 16)
  \/ (i = 3 /\ exists k, cur = 64 * k /\ 0 <= k < 4).
Definition dsym (s : dst) t : dst * list Z :=
  let '(i, cur) := s in
  if i =? 0 then ((1, t * 4), []) else if i =? 1 then ((2, t mod 16 * 16), [cur + t / 16])
  else if i =? 2 then ((3, t mod 4 * 64), [cur + t / 4]) else ((0, cur), [cur + t]).
Fixpoint dsyms s l : dst * list Z :=
  match l with
  | [] => (s, [])
  | t :: r => let (s, o) := dsym s t in let (s, o') := dsyms s r in (s, o ++ o')
  end.
Lemma dsym_inv s t : 0 <= t < 64 -> dinv s -> dinv (fst (dsym s t)).
Proof.
  destruct s as [i cur]. unfold dinv, dsym. intros Ht H.
  destruct (i =? 0); [|destruct (i =? 1); [|destruct (i =? 2)]]; cbn [fst]; auto.
  - right; left. split; auto. exists t. lia.
  - right; right; left. split; auto. exists (t mod 16). lia.
  - right; right; right. split; auto. exists (t mod 4). lia.
Qed.

Lemma dec_char_pure os b i cur c : dinv (i, cur) -> is_byte c -> zlen b < 1024 ->
  exists os' b', zlen b' < 1024 /\
  match symbol_value c with
  | None => dec_char (mk_dec os b i cur) c = Ok (mk_dec os b i cur) /\ os' = os /\ b' = b
  | Some t => dec_char (mk_dec os b i cur) c = Ok (mk_dec os' b' (fst (fst (dsym (i, cur) t))) (snd (fst (dsym (i, cur) t)))) /\
              os' ++ b' = os ++ b ++ snd (dsym (i, cur) t)
  end.
Proof.
  intros Hi Hc Hb. unfold dec_char. rewrite dec_tbl_value by auto. cbn [bind].
  destruct (symbol_value c) as [t|] eqn:E; [|exists os, b; auto].
  pose proof (symbol_value_range _ _ E) as Ht.
  assert (t =? S_ = false) as -> by (unfold S_; lia). cbn [d_idx d_os d_buf d_cur].
  assert (FIN: forall j cu x, exists os' b', zlen b' < 1024 /\
     (let! d := (let! b := put 1024 b x in Ok (mk_dec os b j cu)) in
      if zlen (d_buf d) =? 1024 then Ok (mk_dec (d_os d ++ d_buf d) [] (d_idx d) (d_cur d)) else Ok d)
     = Ok (mk_dec os' b' j cu) /\ os' ++ b' = os ++ b ++ [x]).
  { intros j cu x. rewrite put_ok by lia. cbn [bind d_idx d_os d_buf d_cur]. rewrite zlen_app, zlen_cons, zlen_nil.
    destruct (zlen b + (1 + 0) =? 1024) eqn:E1.
    - exists (os ++ b ++ [x]), []. rewrite app_nil_r. split; [cbn; lia|]. auto.
    - exists os, (b ++ [x]). rewrite zlen_app. cbn. split; [lia|auto]. }
  unfold dsym.
  rewrite !Z.shiftr_div_pow2 by lia. change (2 ^ 2) with 4. change (2 ^ 4) with 16.
  destruct Hi as [-> |[(-> & k & -> & Hk)|[(-> & k & -> & Hk)|(-> & k & -> & Hk)]]].
  - replace (0 =? 0) with true by reflexivity. cbn [bind d_idx d_os d_buf d_cur fst snd]. exists os, b.
    destruct (zlen b =? 1024) eqn:E1; [lia|]. rewrite Z.shiftl_mul_pow2 by lia. change (2 ^ 2) with 4. rewrite app_nil_r. auto.
  - replace (1 =? 0) with false by reflexivity. replace (1 =? 1) with true by reflexivity. cbn [fst snd].
    replace (to_char (Z.lor (4 * k) (t / 16))) with (4 * k + t / 16)
      by (unfold to_char; replace (Z.lor (4 * k) (t / 16)) with (4 * k + t / 16) by (symmetry; apply (lor_low k 2); simpl; lia); rewrite Z.mod_small; lia).
    rewrite bits_a by lia. apply FIN.
  - replace (2 =? 0) with false by reflexivity. replace (2 =? 1) with false by reflexivity. replace (2 =? 2) with true by reflexivity. cbn [fst snd].
    replace (to_char (Z.lor (16 * k) (t / 4))) with (16 * k + t / 4)
      by (unfold to_char; replace (Z.lor (16 * k) (t / 4)) with (16 * k + t / 4) by (symmetry; apply (lor_low k 4); simpl; lia); rewrite Z.mod_small; lia).
    rewrite bits_b by lia. apply FIN.
  - replace (3 =? 0) with false by reflexivity. replace (3 =? 1) with false by reflexivity. replace (3 =? 2) with false by reflexivity. cbn [fst snd].
    replace (to_char (Z.lor (64 * k) t)) with (64 * k + t)
      by (unfold to_char; replace (Z.lor (64 * k) t) with (64 * k + t) by (symmetry; apply (lor_low k 6); simpl; lia); rewrite Z.mod_small; lia).
    apply FIN.
Qed.

Lemma dec_write_pure l : forall os b i cur, dinv (i, cur) -> bytes l -> zlen b < 1024 ->
  exists os' b', zlen b' < 1024 /\
   dec_write (mk_dec os b i cur) l = Ok (mk_dec os' b' (fst (fst (dsyms (i, cur) (symbols_of l)))) (snd (fst (dsyms (i, cur) (symbols_of l))))) /\
   os' ++ b' = os ++ b ++ snd (dsyms (i, cur) (symbols_of l)).
Proof.
  induction l as [|c l IH]; intros os b i cur Hi Hl Hb.
  - exists os, b. cbn. rewrite app_nil_r. auto.
  - inversion Hl as [|? ? Hc Hl']; subst. cbn [dec_write]. unfold symbols_of. cbn [flat_map]. fold (symbols_of l).
    destruct (dec_char_pure os b i cur c Hi Hc Hb) as (os1 & b1 & Hb1 & D). destruct (symbol_value c) as [t|] eqn:E.
    + destruct D as [D1 D2]. rewrite D1. cbn [bind app dsyms].
      pose proof (dsym_inv (i, cur) t (symbol_value_range _ _ E) Hi) as I. destruct (dsym (i, cur) t) as [[i1 c1] o1]. cbn [fst snd] in *.
      destruct (IH os1 b1 i1 c1 I Hl' Hb1) as (os2 & b2 & Hb2 & E1 & E2). exists os2, b2. rewrite E1, E2.
      destruct (dsyms (i1, c1) (symbols_of l)) as [s2 o2]. cbn [fst snd]. rewrite app_assoc, D2, <- !app_assoc. auto.
    + destruct D as (D1 & _). rewrite D1. cbn [bind app]. apply IH; auto.
Qed.

Lemma dsyms_app a : forall s b, dsyms s (a ++ b) = let (s1, o1) := dsyms s a in let (s2, o2) := dsyms s1 b in (s2, o1 ++ o2).
Proof.
  induction a as [|c a IH]; intros s b; cbn [app dsyms].
  - destruct (dsyms s b). reflexivity.
  - destruct (dsym s c) as [s1 o1]. rewrite IH. destruct (dsyms s1 a) as [s2 o2].
    destruct (dsyms s2 b) as [s3 o3]. rewrite app_assoc. reflexivity.
Qed.
Lemma symbols_of_app a b : symbols_of (a ++ b) = symbols_of a ++ symbols_of b.
Proof. apply flat_map_app. Qed.
Lemma symbols_range l : Forall (fun v => 0 <= v < 64) (symbols_of l).
Proof.
  induction l as [|c l IH]; [constructor|]. unfold symbols_of. cbn [flat_map]. fold (symbols_of l).
  destruct (symbol_value c) eqn:E; cbn [app]; auto. constructor; auto. eapply symbol_value_range; eauto.
Qed.
Lemma dsyms_inv l : forall s, Forall (fun v => 0 <= v < 64) l -> dinv s -> dinv (fst (dsyms s l)).
Proof.
  induction l as [|c l IH]; intros s Hl Hs; auto. inversion Hl; subst. cbn [dsyms].
  pose proof (dsym_inv s c H1 Hs). destruct (dsym s c) as [s1 o1]. cbn [fst] in *.
  specialize (IH s1 H2 H). destruct (dsyms s1 l). auto.
Qed.

Lemma list4_ind {A} (P : list A -> Prop) : P [] -> (forall a, P [a]) -> (forall a b, P [a; b]) -> (forall a b c, P [a; b; c]) ->
  (forall a b c d r, P r -> P (a :: b :: c :: d :: r)) -> forall l, P l.
Proof.
  intros P0 P1 P2 P3 P4. assert (G: forall n l, (length l < n)%nat -> P l).
  { induction n; intros l Hl; [lia|]. destruct l as [|a [|b [|c [|d r]]]]; auto. apply P4. apply IHn. simpl in Hl. lia. }
  intros l. eapply G. apply Nat.lt_succ_diag_r.
Qed.
Lemma dsyms_regroup l : forall cur, Forall (fun v => 0 <= v < 64) l -> snd (dsyms (0, cur) l) = regroup l.
Proof.
  induction l using list4_ind; intros cur Hl; repeat match goal with H : Forall _ (_ :: _) |- _ => inversion H; clear H; subst end;
  cbn [dsyms]; [reflexivity|..]; unfold dsym at 1; change (0 =? 0) with true; cbv iota; cbn [dsyms app snd]; auto.
  - unfold dsym. change (1 =? 0) with false. change (1 =? 1) with true. cbn [app snd regroup]. f_equal. lia.
  - unfold dsym. change (1 =? 0) with false. change (1 =? 1) with true. change (2 =? 0) with false. change (2 =? 1) with false. change (2 =? 2) with true.
    cbn [app snd regroup]. cbv zeta. syms.
  - unfold dsym at 1. change (1 =? 0) with false. change (1 =? 1) with true. cbv iota.
    unfold dsym at 1. change (2 =? 0) with false. change (2 =? 1) with false. change (2 =? 2) with true. cbv iota.
    unfold dsym at 1. change (3 =? 0) with false. change (3 =? 1) with false. change (3 =? 2) with false. cbv iota.
    match goal with |- context [dsyms (0, ?z) l] => specialize (IHl z ltac:(auto)); destruct (dsyms (0, z) l) as [s o] end.
    cbn [snd] in IHl. subst o. cbn [app snd regroup]. cbv zeta. f_equal; [lia|]. f_equal; [lia|]. f_equal. lia.
Qed.

Lemma dec_loop_pure : forall fuel os b i cur data sch, dinv (i, cur) -> bytes data -> zlen b < 1024 -> (length data < fuel)%nat ->
  exists os' b', zlen b' < 1024 /\
   dec_loop fuel (mk_dec os b i cur) (mk_is data sch) = Ok (mk_dec os' b' (fst (fst (dsyms (i, cur) (symbols_of data)))) (snd (fst (dsyms (i, cur) (symbols_of data))))) /\
   os' ++ b' = os ++ b ++ snd (dsyms (i, cur) (symbols_of data)).
Proof.
  induction fuel; intros os b i cur data sch Hi Hd Hb Hf; [lia|]. cbn [dec_loop].
  destruct (readSome_spec 1024 (mk_is data sch) ltac:(lia)) as (n & E & Hn1 & Hn2 & Hn3). rewrite E. cbn [is_data is_sched] in *.
  destruct (zlen (firstn n data) =? 0) eqn:E0.
  - rewrite zlen_firstn_le in E0 by auto. destruct data; [|exfalso; assert (1 <= n)%nat by (apply Hn3; congruence); lia].
    exists os, b. cbn. rewrite app_nil_r. auto.
  - rewrite zlen_firstn_le in E0 by auto.
    destruct (dec_write_pure (firstn n data) os b i cur Hi ltac:(apply bytes_firstn; auto) Hb) as (os1 & b1 & Hb1 & E1 & E2).
    rewrite E1. cbn [bind].
    pose proof (dsyms_inv (symbols_of (firstn n data)) (i, cur) (symbols_range _) Hi) as I.
    replace (symbols_of data) with (symbols_of (firstn n data) ++ symbols_of (skipn n data)) by (rewrite <- symbols_of_app, firstn_skipn; auto).
    rewrite dsyms_app. destruct (dsyms (i, cur) (symbols_of (firstn n data))) as [[i1 c1] o1]. cbn [fst snd] in *.
    destruct (IHfuel os1 b1 i1 c1 (skipn n data) (tl sch) I ltac:(apply bytes_skipn'; auto) Hb1 ltac:(rewrite skipn_length; lia)) as (os2 & b2 & Hb2 & E3 & E4).
    exists os2, b2. rewrite E3, E4. destruct (dsyms (i1, c1) (symbols_of (skipn n data))) as [s2 o2]. cbn [fst snd].
    split; auto. split; auto. rewrite app_assoc, E2, <- !app_assoc. auto.
Qed.

Lemma flush_out d : d_os (dec_flush d) = d_os d ++ d_buf d.
Proof.
  unfold dec_flush. destruct (0 <? zlen (d_buf d)) eqn:E; auto.
  destruct (d_buf d); [rewrite app_nil_r; auto|rewrite zlen_cons in E; pose proof (zlen_nonneg l); lia].
Qed.

(** ** alphabet characters of the encoder's output *)
Lemma symbols_of_symbol v l : 0 <= v < 64 -> symbols_of (symbol v :: l) = v :: symbols_of l.
Proof. intros H. unfold symbols_of. cbn [flat_map]. rewrite symbol_value_symbol by auto. reflexivity. Qed.
Lemma regroup_rfc data : bytes data -> regroup (symbols_of (rfc4648 data)) = data.
Proof.
  induction data using list3_ind; intros Hd; repeat match goal with H : bytes (_ :: _) |- _ => inversion H; clear H; subst | H : Forall _ (_ :: _) |- _ => inversion H; clear H; subst end;
  unfold is_byte in *.
  - reflexivity.
  - cbn [rfc4648]. cbv zeta. rewrite !symbols_of_symbol by lia. change (symbols_of [61; 61]) with (@nil Z). cbn [regroup]. f_equal. lia.
  - cbn [rfc4648]. cbv zeta. rewrite !symbols_of_symbol by lia. change (symbols_of [61]) with (@nil Z). cbn [regroup]. cbv zeta. f_equal; [lia|]. f_equal. lia.
  - cbn [rfc4648]. cbv zeta. rewrite !symbols_of_symbol by lia. cbn [regroup]. cbv zeta.
    rewrite IHdata by auto. f_equal; [lia|]. f_equal; [lia|]. f_equal. lia.
Qed.
Lemma symbols_of_eol mode : symbols_of (end_of_line mode) = [].
Proof. unfold end_of_line. destruct (mode =? 2), (mode =? 1); reflexivity. Qed.
Lemma symbols_of_layout L mode c t : laid_out L mode c t -> symbols_of t = symbols_of c.
Proof.
  intros (lines & <- & _ & ->). induction lines as [|x l IH]; auto. cbn [map concat]. rewrite !symbols_of_app, symbols_of_eol, app_nil_r, IH. auto.
Qed.
Lemma bytes_rfc data : bytes data -> bytes (rfc4648 data).
Proof.
  assert (B: is_byte 61) by (unfold is_byte; lia).
  induction data using list3_ind; intros Hd; repeat match goal with H : bytes (_ :: _) |- _ => inversion H; clear H; subst | H : Forall _ (_ :: _) |- _ => inversion H; clear H; subst end;
  cbn [rfc4648]; cbv zeta; repeat (apply Forall_cons; [first [exact B | apply symbol_byte; unfold is_byte in *; lia]|]); first [constructor | apply IHdata; auto].
Qed.
Lemma bytes_layout L mode c t : laid_out L mode c t -> bytes c -> bytes t.
Proof.
  intros (lines & <- & _ & ->). induction lines as [|x l IH]; [auto|]. cbn [map concat]. rewrite !bytes_app. intros [H1 H2]. repeat split; auto.
  unfold end_of_line. destruct (mode =? 2), (mode =? 1); repeat constructor; unfold is_byte; lia.
Qed.
