(** C127: ssl_smpl fetches a page. *)
Require Import Verif.Common Verif.Text Verif.AtoiSpec Verif.NumProps Verif.ExceptionModel Verif.ExceptionProps Verif.SslModel Verif.SslProps Verif.SslSmplModel.
Ltac Zify.zify_post_hook ::= idtac.

(** * Specification *)
Definition line (l : list Z) : list Z := l ++ [10].
Definition no_nul (l : list Z) : Prop := ~ In 0 l.
(** the request of HTTP/1.0 for a path *)
Definition request (path : list Z) : list Z := str "GET " ++ path ++ str " HTTP/1.0" ++ [13; 10; 13; 10].
Definition preamble (host path : list Z) : list Z := line (str "connect " ++ host) ++ line (str "cmd=" ++ request path) ++ line (str "write end").
(** a connection over which the bytes come in some pieces of at most 1024 bytes, with waits, and which the server closes after the last *)
Inductive delivers : list sres -> list Z -> Prop :=
| d_close r : delivers (SErr ZERO_RETURN :: r) []
| d_wait c r s : c = WANT_READ \/ c = WANT_WRITE -> delivers r s -> delivers (SErr c :: r) s
| d_piece d r s : d <> [] -> zlen d <= 1024 -> delivers r s -> delivers (SGet (zlen d) :: r) (d ++ s).
(** a connection over which everything can be sent *)
Definition takes (wsched : list sres) (n : Z) : Prop := (forall a, In a wsched -> ~ wfatal a) /\ n <= gets wsched.

Lemma c_text_id l : no_nul l -> c_text l = l.
Proof.
  unfold no_nul. induction l as [|c l IH]; intros N; [reflexivity|]. cbn [c_text]. destruct (Z.eqb_spec c 0) as [->|]; [exfalso; apply N; now left|].
  f_equal. apply IH. intros H. apply N. now right.
Qed.
Lemma http_request path : http path = request path. Proof. reflexivity. Qed.
Lemma no_nul_app a b : no_nul a -> no_nul b -> no_nul (a ++ b).
Proof. unfold no_nul. rewrite in_app_iff. tauto. Qed.
Lemma request_nul path : no_nul path -> no_nul (request path).
Proof.
  intros N. unfold request. repeat apply no_nul_app; auto; unfold no_nul; cbn; intros H; repeat (destruct H as [H|H]; [discriminate|]); exact H.
Qed.
Lemma fetch_safe fuel : forall garbage sched src total out r out' total' rest, (forall i, zlen (garbage i) = 1024) -> no_nul src ->
  fetch fuel garbage sched src total out = (r, out', total', rest) ->
  exists body, src = body ++ rest /\ out' = out ++ body /\ total' = total + zlen body /\ r <> UB /\
    (r = Ok tt -> In (SErr ZERO_RETURN) sched) /\ (r = Exn -> exists a, In a sched /\ fatal a).
Proof.
  induction fuel as [|f IH]; intros garbage sched src total out r out' total' rest G N E; cbn [fetch] in E.
  - injection E as <- <- <- <-. exists []. rewrite app_nil_r, zlen_nil. repeat split; try congruence; try lia; discriminate.
  - pose proof (readSome_gen sched src (garbage O) [] 1024 ltac:(rewrite zlen_nil; lia) ltac:(rewrite G; lia)) as R. cbn [app length skipn] in R. rewrite zlen_nil in R.
    replace (1024 - 0) with 1024 in R by lia.
    pose proof (C80_readSome sched src (garbage O) 1024) as K.
    destruct (ssl_readSome sched (garbage O) src 0 1024) as [o s]. destruct o as [n| | |].
    + destruct (K n s ltac:(rewrite G; lia) eq_refl) as (got & Kn & _ & Ks & Kb & Kz). destruct R as (_ & _ & _ & _ & _ & _ & Sub & _).
      destruct (Z.eqb_spec n 0) as [Z0|Z0].
      * injection E as <- <- <- <-. exists []. assert (got = []) as -> by (destruct got; auto; rewrite zlen_cons in Kn; pose proof (zlen_nonneg got); lia).
        rewrite app_nil_r, zlen_nil. cbn [app] in *. repeat split; try congruence; try lia. intros _. auto.
      * assert (F : firstn (Z.to_nat n) (ss_buf s) = got).
        { rewrite Kb, Kn. unfold zlen. rewrite Nat2Z.id. rewrite firstn_app, Nat.sub_diag, firstn_all. apply app_nil_r. }
        rewrite F in E. rewrite Ks in N. assert (N1 : no_nul got) by (intros X; apply N; apply in_or_app; now left).
        assert (N2 : no_nul (ss_src s)) by (intros X; apply N; apply in_or_app; now right). rewrite c_text_id in E by exact N1.
        apply IH in E; auto. destruct E as (body & E1 & E2 & E3 & E4 & E5 & E6). exists (got ++ body). rewrite <- app_assoc, <- E1. split; [exact Ks|].
        rewrite app_assoc. split; [exact E2|]. rewrite zlen_app. split; [lia|]. split; [exact E4|]. split; [auto|]. intros X. destruct (E6 X) as (a & A & B). eauto.
    + injection E as <- <- <- <-. destruct R as (R1 & R2 & _). exists []. rewrite R2, app_nil_r, zlen_nil. repeat split; try congruence; try lia; auto.
    + destruct R.
    + injection E as <- <- <- <-. destruct R as (_ & R2 & _). exists []. rewrite R2, app_nil_r, zlen_nil. repeat split; try congruence; try lia; discriminate.
Qed.
Lemma main_cases host path more wsched rsched src garbage what : no_nul host -> no_nul path ->
  main (host :: path :: more) true wsched rsched src garbage what =
  match ssl_write wsched (request path) 0 (zlen (request path)) [] [] with
  | (Ok _, sent, _) =>
    match fetch (S (length rsched)) garbage rsched src 0 (preamble host path) with
    | (Ok _, out, total, _) => mk_run (out ++ [10] ++ str "total=" ++ printf_d (as_int total) ++ [10]) sent (Exit 0)
    | (Exn, out, _, _) => failed out what sent
    | (UB, out, _, _) => mk_run out sent Undefined
    | (Fuel, out, _, _) => mk_run out sent Waits
    end
  | (Exn, sent, _) => failed (line (str "connect " ++ host) ++ line (str "cmd=" ++ request path)) what sent
  | (UB, sent, _) => mk_run (line (str "connect " ++ host) ++ line (str "cmd=" ++ request path)) sent Undefined
  | (Fuel, sent, _) => mk_run (line (str "connect " ++ host) ++ line (str "cmd=" ++ request path)) sent Waits
  end.
Proof.
  intros Nh Np. unfold main. cbn [negb]. rewrite http_request, (c_text_id host), (c_text_id (request path)) by (auto using request_nul).
  unfold preamble, line. rewrite <- !app_assoc. reflexivity.
Qed.
Lemma sent_prefix wsched path r sent calls : ssl_write wsched (request path) 0 (zlen (request path)) [] [] = (r, sent, calls) ->
  r <> UB /\ (exists rest, request path = sent ++ rest) /\ (r = Ok tt -> sent = request path) /\ (takes wsched (zlen (request path)) -> r = Ok tt).
Proof.
  intros E. pose proof (C80_write wsched (request path) (zlen (request path)) ltac:(pose proof (zlen_nonneg (request path)); lia)) as W. rewrite E in W.
  destruct W as (rest & W1 & W2 & W3 & _). rewrite firstn_all2 in W1 by (unfold zlen; lia). split; [|split; [|split]].
  - destruct W2 as [[-> _]|[[-> _]|[-> _]]]; discriminate.
  - exists rest. exact W1.
  - intros ->. destruct W2 as [[_ ->]|[[X _]|[X _]]]; try discriminate. now rewrite app_nil_r in W1.
  - intros [T1 T2]. auto.
Qed.
(** C127: what the program sends is the request or, if it fails or waits, a first part of it; nothing it does is undefined *)
Theorem C127_request args connected wsched rsched src garbage what : (forall i, zlen (garbage i) = 1024) -> Forall no_nul args -> no_nul src ->
  let o := main args connected wsched rsched src garbage what in
  r_end o <> Undefined /\
  forall host path more, args = host :: path :: more -> (exists rest, request path = r_sent o ++ rest) /\ (r_end o = Exit 0 -> r_sent o = request path).
Proof.
  intros G A N. destruct args as [|host [|path more]]; [cbn; split; [discriminate|discriminate]|cbn; split; [discriminate|discriminate]|].
  apply Forall_cons_iff in A. destruct A as [Nh A]. apply Forall_cons_iff in A. destruct A as [Np _].
  destruct connected.
  2:{ cbn. split; [discriminate|]. intros h p m E. injection E as <- <- <-. split; [exists (request path); reflexivity|discriminate]. }
  cbn zeta. rewrite main_cases by auto. destruct (ssl_write wsched (request path) 0 (zlen (request path)) [] []) as [[r sent] calls] eqn:E.
  destruct (sent_prefix _ _ _ _ _ E) as (W1 & W2 & W3 & _).
  assert (BAD : forall out k, k <> 0 -> forall o, o = mk_run out sent (Exit k) \/ o = mk_run out sent Waits -> r_end o <> Undefined /\
    forall h p m, host :: path :: more = h :: p :: m -> (exists rest, request p = r_sent o ++ rest) /\ (r_end o = Exit 0 -> r_sent o = request p)).
  { intros out k K o O. assert (r_sent o = sent /\ r_end o <> Undefined /\ r_end o <> Exit 0) as (O1 & O2 & O3).
    { destruct O as [-> | ->]; cbn; repeat split; try discriminate. congruence. }
    split; [exact O2|]. intros h p m X. injection X as <- <- <-. rewrite O1. split; [exact W2|]. intros Y. now elim O3. }
  destruct r as [[]| | |]; [|apply (BAD (line (str "connect " ++ host) ++ line (str "cmd=" ++ request path) ++ str "err=" ++ what ++ [10]) 1); [discriminate|left; unfold failed; now rewrite <- !app_assoc]|congruence|eapply (BAD _ 1); [discriminate|right; reflexivity]].
  specialize (W3 eq_refl). destruct (fetch (S (length rsched)) garbage rsched src 0 (preamble host path)) as [[[r out] total] rest] eqn:F.
  apply fetch_safe in F; auto. destruct F as (_ & _ & _ & _ & F & _).
  destruct r as [[]| | |]; try congruence; (cbn; split; [discriminate|]; intros h p m X; injection X as <- <- <-; split; [exact W2|auto]).
Qed.
Definition no_garbage : nat -> list Z := fun _ => repeat 99 1024.
Example C127_request_case : r_sent (main [str "www.cybozu.com"; str "/"] true [SErr WANT_WRITE; SGet 5; SGet 1000] [] [] no_garbage []) = request (str "/") /\
  (forall i, zlen (no_garbage i) = 1024) /\ r_end (main [str "host"] true [] [] [] no_garbage []) = Exit 1.
Proof. split; [vm_compute; reflexivity|]. split; [reflexivity|reflexivity]. Qed.
(** C127: when the program ends without an error, the server has closed the connection, the program has sent the request and has printed, between
    its own lines, exactly what came before the end, and how many bytes that were *)
Theorem C127_printed host path more connected wsched rsched src garbage what : (forall i, zlen (garbage i) = 1024) -> no_nul host -> no_nul path -> no_nul src ->
  let o := main (host :: path :: more) connected wsched rsched src garbage what in r_end o = Exit 0 ->
  exists body rest number, src = body ++ rest /\ In (SErr ZERO_RETURN) rsched /\ r_sent o = request path /\
    r_out o = preamble host path ++ body ++ [10] ++ line (str "total=" ++ number) /\ (zlen body < 2 ^ 31 -> canonical_int number (zlen body)).
Proof.
  intros G Nh Np N o. subst o. destruct connected; [|discriminate]. rewrite main_cases by auto.
  destruct (ssl_write wsched (request path) 0 (zlen (request path)) [] []) as [[r sent] calls] eqn:E. destruct (sent_prefix _ _ _ _ _ E) as (_ & _ & W3 & _).
  destruct r as [[]| | |]; try discriminate. specialize (W3 eq_refl).
  destruct (fetch (S (length rsched)) garbage rsched src 0 (preamble host path)) as [[[r out] total] rest] eqn:F.
  apply fetch_safe in F; auto. destruct F as (body & F1 & F2 & F3 & _ & F5 & _). destruct r as [[]| | |]; try discriminate. intros _.
  exists body, rest, (printf_d (as_int total)). split; [exact F1|]. split; [auto|]. cbn [r_sent r_out]. split; [exact W3|]. split.
  - rewrite F2. unfold line. rewrite <- !app_assoc. reflexivity.
  - intros L. pose proof (zlen_nonneg body) as P. assert (A : as_int total = zlen body).
    { unfold as_int. rewrite F3, Z.add_0_l, Z.mod_small by lia. lia. }
    rewrite A. apply d_text. lia.
Qed.
(** a run with an error in the middle prints what came before it, the error, and ends with status 1 *)
Theorem C127_error host path more wsched rsched src garbage what : (forall i, zlen (garbage i) = 1024) -> no_nul host -> no_nul path -> no_nul src ->
  takes wsched (zlen (request path)) -> let o := main (host :: path :: more) true wsched rsched src garbage what in r_end o = Exit 1 ->
  (exists a, In a rsched /\ fatal a) /\ exists body rest, src = body ++ rest /\ r_out o = preamble host path ++ body ++ line (str "err=" ++ what).
Proof.
  intros G Nh Np N T o. subst o. rewrite main_cases by auto.
  destruct (ssl_write wsched (request path) 0 (zlen (request path)) [] []) as [[r sent] calls] eqn:E. destruct (sent_prefix _ _ _ _ _ E) as (_ & _ & _ & W4).
  rewrite (W4 T). destruct (fetch (S (length rsched)) garbage rsched src 0 (preamble host path)) as [[[r' out] total] rest] eqn:F.
  apply fetch_safe in F; auto. destruct F as (body & F1 & F2 & _ & _ & _ & F6). destruct r' as [[]| | |]; try discriminate. intros _.
  split; [auto|]. exists body, rest. split; [exact F1|]. unfold failed. cbn [r_out]. rewrite F2. unfold line. rewrite <- !app_assoc. reflexivity.
Qed.
Example C127_error_case : r_out (main [str "h"; str "/"] true [SGet 1000] [SGet 2; SErr 5] (str "abc") no_garbage (str "x")) =
  preamble (str "h") (str "/") ++ str "ab" ++ line (str "err=x") /\ takes [SGet 1000; SGet 1; SGet 1] 3 /\ fatal (SErr 5).
Proof.
  split; [vm_compute; reflexivity|]. split; [|vm_compute; repeat split; discriminate]. split; [|vm_compute; discriminate].
  intros a H. cbn in H. repeat (destruct H as [<-|H]; [tauto|]). tauto.
Qed.

Lemma readSome_piece d r s buf : d <> [] -> zlen d <= 1024 -> zlen buf = 1024 ->
  exists st, ssl_readSome (SGet (zlen d) :: r) buf (d ++ s) 0 1024 = (Ok (zlen d), st) /\ firstn (Z.to_nat (zlen d)) (ss_buf st) = d /\ ss_src st = s /\ ss_sched st = r.
Proof.
  intros NE L B. assert (P : 0 < zlen d) by (destruct d; [congruence|]; rewrite zlen_cons; pose proof (zlen_nonneg d); lia).
  cbn [ssl_readSome]. change (Z.min TransferModel.maxIO 1024) with 1024. rewrite B. change ((0 <? 0) || (1024 <? 0 + 1024)) with false. cbn iota.
  assert (K : TransferModel.k_read (d ++ s) 1024 (zlen d) = zlen d) by (unfold TransferModel.k_read; rewrite zlen_app; pose proof (zlen_nonneg s); lia).
  rewrite K. destruct (Z.leb_spec (zlen d) 0); [lia|]. eexists. split; [reflexivity|]. cbn [ss_buf ss_src ss_sched].
  assert (F : firstn (Z.to_nat (zlen d)) (d ++ s) = d) by (unfold zlen; rewrite Nat2Z.id, firstn_app, Nat.sub_diag, firstn_all; apply app_nil_r).
  rewrite F. split; [|split; [|reflexivity]].
  - unfold TransferModel.blit. cbn [Z.to_nat firstn app]. unfold zlen. rewrite Nat2Z.id, firstn_app, Nat.sub_diag, firstn_all. apply app_nil_r.
  - unfold zlen. rewrite Nat2Z.id, skipn_app, Nat.sub_diag, skipn_all. reflexivity.
Qed.
Lemma fetch_wait f garbage c r s total out : c = WANT_READ \/ c = WANT_WRITE ->
  fetch (S f) garbage (SErr c :: r) s total out = fetch (S f) garbage r s total out.
Proof. intros [-> | ->]; reflexivity. Qed.
Lemma fetch_all sched src : delivers sched src -> forall garbage fuel total out, (forall i, zlen (garbage i) = 1024) -> no_nul src -> (length sched <= fuel)%nat ->
  fetch (S fuel) garbage sched src total out = (Ok tt, out ++ src, total + zlen src, []).
Proof.
  induction 1 as [r|c r s C D IH|d r s NE L D IH]; intros garbage fuel total out G N F.
  - cbn [fetch ssl_readSome Z.eqb ss_src]. rewrite app_nil_r, zlen_nil, Z.add_0_r. reflexivity.
  - rewrite fetch_wait by exact C. apply IH; auto. cbn [length] in F. lia.
  - destruct (readSome_piece d r s (garbage O) NE L (G O)) as (st & R & B & S1 & S2). cbn [fetch]. rewrite R.
    assert (P : 0 < zlen d) by (destruct d; [congruence|]; rewrite zlen_cons; pose proof (zlen_nonneg d); lia).
    destruct (Z.eqb_spec (zlen d) 0); [lia|]. rewrite B, S1, S2. cbn [length] in F. destruct fuel as [|f]; [lia|].
    assert (N1 : no_nul d) by (intros X; apply N; apply in_or_app; now left). assert (N2 : no_nul s) by (intros X; apply N; apply in_or_app; now right).
    rewrite (c_text_id d) by exact N1. rewrite IH; auto; [|lia]. rewrite <- app_assoc, zlen_app. f_equal. f_equal. lia.
Qed.
(** C127: a page without NUL is printed whole, in whatever pieces it comes and however long the library waits; the number behind it is its length as an int *)
Theorem C127_page host path more wsched rsched page garbage what : (forall i, zlen (garbage i) = 1024) -> no_nul host -> no_nul path -> no_nul page ->
  takes wsched (zlen (request path)) -> delivers rsched page -> exists number x,
  main (host :: path :: more) true wsched rsched page garbage what = mk_run (preamble host path ++ page ++ [10] ++ line (str "total=" ++ number)) (request path) (Exit 0) /\
  canonical_int number x /\ - 2 ^ 31 <= x < 2 ^ 31 /\ x mod 2 ^ 32 = zlen page mod 2 ^ 32.
Proof.
  intros G Nh Np N T D. rewrite main_cases by auto.
  destruct (ssl_write wsched (request path) 0 (zlen (request path)) [] []) as [[r sent] calls] eqn:E. destruct (sent_prefix _ _ _ _ _ E) as (_ & _ & W3 & W4).
  specialize (W4 T). rewrite W4 in *. rewrite (W3 eq_refl). rewrite (fetch_all rsched page D) by auto. rewrite Z.add_0_l.
  assert (R : - 2 ^ 31 <= as_int (zlen page) < 2 ^ 31) by (unfold as_int; pose proof (Z.mod_pos_bound (zlen page + 2 ^ 31) (2 ^ 32) ltac:(lia)); lia).
  exists (printf_d (as_int (zlen page))), (as_int (zlen page)). split; [|split; [apply d_text; exact R|split; [exact R|]]].
  - f_equal. unfold line. rewrite <- !app_assoc. reflexivity.
  - unfold as_int. rewrite Zminus_mod_idemp_l. f_equal. lia.
Qed.
Example C127_page_case : takes (repeat (SGet 1) 100) (zlen (request (str "/"))) /\ delivers [SErr WANT_READ; SGet 2; SGet 1; SErr ZERO_RETURN] (str "abc") /\
  r_out (main [str "h"; str "/"] true (repeat (SGet 1) 100) [SErr WANT_READ; SGet 2; SGet 1; SErr ZERO_RETURN] (str "abc") no_garbage []) =
  preamble (str "h") (str "/") ++ str "abc" ++ [10] ++ line (str "total=3").
Proof.
  split; [|split].
  - split; [|vm_compute; discriminate]. intros a H. apply repeat_spec in H. subst. cbn. tauto.
  - apply d_wait; [now left|]. change (str "abc") with (str "ab" ++ str "c"). apply (d_piece (str "ab")); [discriminate|vm_compute; discriminate|].
    change (str "c") with (str "c" ++ []). apply (d_piece (str "c")); [discriminate|vm_compute; discriminate|constructor].
  - vm_compute. reflexivity.
Qed.
(** every page, of whatever length, comes in some such way *)
Example C127_any_page page : delivers (map (fun _ => SGet 1) page ++ [SErr ZERO_RETURN]) page.
Proof.
  induction page as [|c page IH]; [constructor|]. cbn [map app]. change (c :: page) with ([c] ++ page). apply (d_piece [c]); [discriminate|vm_compute; discriminate|exact IH].
Qed.
(** ** Finding: ssl_smpl prints each piece only up to a NUL, so that what is printed of a binary page depends on how it was cut in pieces; total counts all *)
Theorem C127_nul_finding : let page := [65; 0; 66; 67] in
  let o1 := main [str "h"; str "/"] true [SGet 1000] [SGet 4; SErr ZERO_RETURN] page no_garbage [] in
  let o2 := main [str "h"; str "/"] true [SGet 1000] [SGet 2; SGet 2; SErr ZERO_RETURN] page no_garbage [] in
  r_out o1 = preamble (str "h") (str "/") ++ str "A" ++ [10] ++ line (str "total=4") /\
  r_out o2 = preamble (str "h") (str "/") ++ str "ABC" ++ [10] ++ line (str "total=4").
Proof. split; vm_compute; reflexivity. Qed.
(** ** Finding: the total of ssl_smpl is printed as an int: for a page of 2 to the 31st bytes it is negative *)
Theorem C127_total_finding host path wsched rsched page garbage what : (forall i, zlen (garbage i) = 1024) -> no_nul host -> no_nul path -> no_nul page ->
  takes wsched (zlen (request path)) -> delivers rsched page -> zlen page = 2 ^ 31 -> exists number x,
  r_out (main [host; path] true wsched rsched page garbage what) = preamble host path ++ page ++ [10] ++ line (str "total=" ++ number) /\ canonical_int number x /\ x = - 2 ^ 31.
Proof.
  intros G Nh Np N T D L. destruct (C127_page host path [] wsched rsched page garbage what G Nh Np N T D) as (number & x & E & C & R & M).
  exists number, x. rewrite E. split; [reflexivity|]. split; [exact C|]. rewrite L in M. change (2 ^ 31 mod 2 ^ 32) with (2 ^ 31) in M.
  pose proof (Z.div_mod x (2 ^ 32) ltac:(lia)) as DM. rewrite M in DM. assert (x / 2 ^ 32 = -1 \/ 0 <= x / 2 ^ 32 \/ x / 2 ^ 32 <= -2) as [Q|[Q|Q]] by lia; lia.
Qed.

Print Assumptions C127_request.
Print Assumptions C127_printed.
Print Assumptions C127_error.
Print Assumptions C127_page.
Print Assumptions C127_nul_finding.
Print Assumptions C127_total_finding.
