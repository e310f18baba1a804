(** C80: the TLS client socket (include/cybozu/ssl.hpp) *)
Require Import Verif.Common Verif.TransferModel Verif.TransferProps Verif.SslModel.

(** ** Specification *)
(** an answer that makes the call throw *)
Definition fatal (a : sres) : Prop := match a with SGet _ => False | SErr c => c <> WANT_READ /\ c <> WANT_WRITE /\ c <> ZERO_RETURN end.
Definition wfatal (a : sres) : Prop := match a with SGet _ => False | SErr c => c <> WANT_READ /\ c <> WANT_WRITE end.
(** answers that transfer something *)
Fixpoint gets (sched : list sres) : Z := match sched with [] => 0 | SGet _ :: r => 1 + gets r | _ :: r => gets r end.
Lemma gets_nonneg s : 0 <= gets s. Proof. induction s as [|[]]; cbn [gets]; lia. Qed.

(** ** Reading *)
Lemma readSome_gen : forall sched src buf0 got n,
  zlen got < n -> n <= zlen buf0 ->
  match ssl_readSome sched (got ++ skipn (length got) buf0) src (zlen got) (n - zlen got) with
  | (Ok k, s') => exists d, k = zlen d /\ src = d ++ ss_src s' /\ ss_buf s' = (got ++ d) ++ skipn (length (got ++ d)) buf0 /\ zlen got + k <= n /\
      (length (ss_sched s') < length sched)%nat /\ (forall a, In a (ss_sched s') -> In a sched) /\
      (k = 0 /\ gets (ss_sched s') = gets sched \/ 0 < k /\ gets (ss_sched s') + 1 = gets sched)
  | (Exn, s') => (exists a, In a sched /\ fatal a) /\ ss_src s' = src /\ ss_buf s' = got ++ skipn (length got) buf0
  | (Fuel, s') => (gets sched = 0 \/ src = []) /\ ss_src s' = src /\ ss_buf s' = got ++ skipn (length got) buf0
  | (UB, _) => False
  end.
Proof.
  intros sched src buf0 got n L Hn. induction sched as [|[m|c] sched IH]; cbn [ssl_readSome gets].
  - cbn [ss_src ss_buf]. auto.
  - assert (Lb: zlen (got ++ skipn (length got) buf0) = zlen buf0) by (unfold zlen in *; rewrite app_length, skipn_length; lia).
    rewrite Lb. pose proof (zlen_nonneg got). pose proof (zlen_nonneg src). pose proof maxIO_pos.
    destruct ((zlen got <? 0) || (zlen buf0 <? zlen got + Z.min maxIO (n - zlen got))) eqn:B; [lia|].
    set (k := k_read src (Z.min maxIO (n - zlen got)) m).
    assert (K: 0 <= k <= zlen src /\ k <= n - zlen got /\ (k = 0 -> zlen src = 0)). { unfold k, k_read. lia. }
    assert (Kd: zlen (firstn (Z.to_nat k) src) = k) by (unfold zlen in *; rewrite firstn_length; lia).
    destruct (Z.leb_spec k 0) as [K0|K0].
    + cbn [ss_src ss_buf]. split; [right|auto]. destruct src; auto. exfalso. rewrite zlen_cons in K. pose proof (zlen_nonneg src). lia.
    + exists (firstn (Z.to_nat k) src). cbn [ss_src ss_buf ss_sched]. split; [auto|]. split; [symmetry; apply firstn_skipn|]. split.
      * unfold blit. rewrite to_nat_zlen, firstn_app_exact, app_assoc. f_equal.
        rewrite app_length. generalize (length (firstn (Z.to_nat k) src)) as a. intros a. clear.
        rewrite skipn_app, (skipn_all2 got) by lia. cbn [app]. rewrite skipn_skipn. f_equal. lia.
      * split; [lia|]. split; [simpl; lia|]. split; [intros; right; auto|]. right. lia.
  - destruct (Z.eqb_spec c ZERO_RETURN) as [Ez|Ez].
    + exists []. cbn [ss_src ss_buf ss_sched]. rewrite app_nil_r. split; [auto|]. split; [auto|]. split; [auto|]. split; [lia|]. split; [simpl; lia|]. split; [intros; right; auto|]. left. auto.
    + destruct (Z.eqb_spec c WANT_READ) as [E1|E1]; [|destruct (Z.eqb_spec c WANT_WRITE) as [E2|E2]]; cbn [orb].
      3:{ cbn [ss_src ss_buf]. split; [|auto]. exists (SErr c). split; [left; auto|]. cbn. auto. }
      all: destruct (ssl_readSome sched _ src (zlen got) (n - zlen got)) as [[k| | |] s']; auto;
        [destruct IH as (d & A1 & A2 & A3 & A4 & A5 & A6 & A7); exists d; split; [auto|]; split; [auto|]; split; [auto|]; split; [auto|]; split; [simpl; lia|]; split; [intros; right; auto|auto]
        |destruct IH as ((a & I & F) & A2); split; [exists a; split; [right; auto|auto]|auto]].
Qed.
Lemma read_gen : forall fuel src0 buf0 got src sched n, src0 = got ++ src -> zlen got <= n -> n <= zlen buf0 -> (length sched <= fuel)%nat ->
  let o := ssl_read fuel (mk_ss (got ++ skipn (length got) buf0) src sched) (zlen got) (n - zlen got) in
  exists got', (src0 = got' ++ ss_src (snd o) /\ ss_buf (snd o) = got' ++ skipn (length got') buf0) /\
    ((fst o = Ok tt /\ zlen got' = n) \/ (fst o = Exn /\ zlen got' < n /\ exists a, In a sched /\ fatal a) \/ (fst o = Fuel /\ zlen got' < n)) /\
    ((forall a, In a sched -> ~ fatal a) -> n - zlen got <= zlen src -> n - zlen got <= gets sched -> fst o = Ok tt).
Proof.
  intros fuel. induction fuel as [|f IH]; intros src0 buf0 got src sched n E L Hn Hf; cbn [ssl_read]; cbv zeta.
  - destruct sched; [|simpl in Hf; lia]. destruct (Z.leb_spec (n - zlen got) 0); cbn [fst snd]; exists got; (split; [split; auto|]); cbn [gets].
    + split; [left; split; [auto|lia]|auto].
    + split; [right; right; split; [auto|lia]|lia].
  - destruct (Z.leb_spec (n - zlen got) 0) as [Z0|Z0]; cbn [fst snd].
    + exists got. split; [split; auto|]. split; [left; split; [auto|lia]|auto].
    + cbn [ss_sched ss_buf ss_src]. pose proof (readSome_gen sched src buf0 got n ltac:(lia) Hn) as R.
      destruct (ssl_readSome sched _ src (zlen got) (n - zlen got)) as [[k| | |] s'].
      * destruct R as (d & A1 & A2 & A3 & A4 & A5 & A6 & A7). pose proof (zlen_nonneg d).
        assert (Es: s' = mk_ss ((got ++ d) ++ skipn (length (got ++ d)) buf0) (ss_src s') (ss_sched s')) by (rewrite <- A3; destruct s'; reflexivity).
        rewrite Es. replace (zlen got + k) with (zlen (got ++ d)) by (rewrite zlen_app; lia). replace (n - zlen got - k) with (n - zlen (got ++ d)) by (rewrite zlen_app; lia).
        destruct (IH src0 buf0 (got ++ d) (ss_src s') (ss_sched s') n) as (got' & B1 & B2 & B3).
        { rewrite <- app_assoc, <- A2. auto. } { rewrite zlen_app. lia. } { auto. } { lia. }
        exists got'. split; [auto|]. split.
        -- destruct B2 as [B2|[(B2 & B5 & a & I & F)|B2]]; [left; auto|right; left; split; [auto|split; [auto|exists a; auto]]|right; right; auto].
        -- intros N1 N2 N3. apply B3; [auto| |]; rewrite zlen_app; [rewrite A2, zlen_app in N2; lia|lia].
      * destruct R as ((a & I & F) & A2 & A3). exists got. cbn [fst snd]. split; [split; congruence|]. split; [right; left; split; [auto|split; [lia|exists a; auto]]|]. intros N. exfalso. apply (N a I F).
      * destruct R.
      * destruct R as (A1 & A2 & A3). exists got. cbn [fst snd]. split; [split; congruence|]. split; [right; right; split; [auto|lia]|]. intros _ N2 N3.
        destruct A1 as [A1| ->]; [lia|]. rewrite zlen_nil in N2. lia.
Qed.
(** read: the bytes stored are the next ones of the connection, each once and in order, the rest of the buffer is
    unchanged; it returns only with all n bytes, throws only on a real error; it does return if the bytes come *)
Theorem C80_read sched src buf n : 0 <= n <= zlen buf ->
  let o := run_read sched src buf n in
  exists got, src = got ++ ss_src (snd o) /\ ss_buf (snd o) = got ++ skipn (length got) buf /\
    ((fst o = Ok tt /\ zlen got = n) \/ (fst o = Exn /\ zlen got < n /\ exists a, In a sched /\ fatal a) \/ (fst o = Fuel /\ zlen got < n)) /\
    ((forall a, In a sched -> ~ fatal a) -> n <= zlen src -> n <= gets sched -> fst o = Ok tt).
Proof.
  intros H. pose proof (read_gen (length sched) src buf [] src sched n eq_refl ltac:(rewrite zlen_nil; lia) ltac:(lia) ltac:(lia)) as G.
  rewrite zlen_nil in G. replace (n - 0) with n in G by lia. cbv zeta in G. destruct G as (got & (A & B) & C & D). exists got. auto.
Qed.
Example C80_read_ex : run_read [SGet 2; SErr WANT_READ; SErr WANT_WRITE; SGet 9] [1; 2; 3; 4; 5] [0; 0; 0; 0; 7] 4 = (Ok tt, mk_ss [1; 2; 3; 4; 7] [5] []).
Proof. reflexivity. Qed.
(** readSome: at least one byte, or 0 exactly when the peer has closed *)
Theorem C80_readSome sched src buf n k s : 0 < n <= zlen buf -> ssl_readSome sched buf src 0 n = (Ok k, s) ->
  exists got, k = zlen got /\ k <= n /\ src = got ++ ss_src s /\ ss_buf s = got ++ skipn (length got) buf /\ (k = 0 -> In (SErr ZERO_RETURN) sched).
Proof.
  intros H E. pose proof (readSome_gen sched src buf [] n ltac:(rewrite zlen_nil; lia) ltac:(lia)) as R. cbn [app length skipn] in R. rewrite zlen_nil in R. replace (n - 0) with n in R by lia.
  rewrite E in R. destruct R as (d & A1 & A2 & A3 & A4 & A5 & A6 & A7). cbn [app] in *. exists d. split; [auto|]. split; [lia|]. split; [auto|]. split; [auto|].
  intros K0. clear - E K0. revert E. induction sched as [|[m|c] sched IH]; cbn [ssl_readSome]; [discriminate| |].
  - destruct (_ || _); [discriminate|]. destruct (Z.leb_spec (k_read src (Z.min maxIO n) m) 0); [discriminate|]. intros E. injection E as E _. lia.
  - destruct (Z.eqb_spec c ZERO_RETURN) as [->|]; [left; auto|]. destruct (_ || _); [|discriminate]. intros E. right. auto.
Qed.
(** ** Finding: read of the TLS socket never returns once the peer has closed the connection
    readSome reports the close by 0; read does not look at it and calls again, for ever (Socket::read throws) *)
Theorem C80_read_eof_finding sched src buf n : zlen src < n <= zlen buf -> (forall a, In a sched -> ~ fatal a) -> fst (run_read sched src buf n) = Fuel.
Proof.
  intros H N. destruct (C80_read sched src buf n) as (got & E1 & _ & C & _); [pose proof (zlen_nonneg src); lia|].
  destruct C as [[_ L]|[(_ & _ & a & I & F)|[F _]]]; [|exfalso; apply (N a I F)|auto]. exfalso. rewrite E1, zlen_app in H. pose proof (zlen_nonneg (ss_src (snd (run_read sched src buf n)))). lia.
Qed.
Example C80_read_eof_ex : fst (run_read (SGet 1 :: repeat (SErr ZERO_RETURN) 1000) [1] [0; 0] 2) = Fuel.
Proof. vm_compute. reflexivity. Qed.

(** ** Writing *)
(** a call that was answered by an error that is not fatal is repeated with the same bytes: the library requires it *)
Definition retried (calls : list (Z * Z * sres)) : Prop :=
  forall pre a b post, calls = pre ++ a :: b :: post -> (exists c, snd a = SErr c) -> fst b = fst a.
Lemma write_gen : forall sched buf n p calls, 0 <= p <= n -> n <= zlen buf ->
  let o := ssl_write sched buf p (n - p) (take p buf) calls in
  exists q new, p <= q <= n /\ snd (fst o) = take q buf /\ snd o = calls ++ new /\
  ((fst (fst o) = Ok tt /\ q = n) \/ (fst (fst o) = Exn /\ q < n /\ exists a, In a sched /\ wfatal a) \/ (fst (fst o) = Fuel /\ q < n)) /\
  ((forall a, In a sched -> ~ wfatal a) -> n - p <= gets sched -> fst (fst o) = Ok tt) /\
  retried new /\ (forall a r, new = a :: r -> fst a = (p, Z.min maxIO (n - p))) /\
  (forall a, In a new -> p <= fst (fst a) /\ 0 < snd (fst a) <= maxIO /\ fst (fst a) + snd (fst a) <= n).
Proof.
  assert (R0: retried []) by (intros [|? pre] a b post E; cbn in E; discriminate).
  assert (R1: forall x, retried [x]) by (intros x [|? [|? pre]] a b post E; cbn in E; discriminate).
  assert (RC: forall x y r, (forall c, snd x = SErr c -> fst y = fst x) -> retried (y :: r) -> retried (x :: y :: r)).
  { intros x y r H R [|z pre] a b post E (c & S); cbn [app] in E; injection E as; subst; [eauto|]. eapply R; eauto. }
  intros sched. induction sched as [|k sched IH]; intros buf n p calls Hp Hn; cbn [ssl_write]; cbv zeta.
  - destruct (Z.leb_spec (n - p) 0); cbn [fst snd]; exists p, []; rewrite app_nil_r; (split; [lia|]; split; [auto|]; split; [auto|]; split; [|split; [|split; [auto|split; [discriminate|intros ? []]]]]).
    + left. split; [auto|lia].
    + auto.
    + right; right; split; [auto|lia].
    + cbn [gets]. lia.
  - destruct (Z.leb_spec (n - p) 0) as [L|L].
    { exists p, []. cbn [fst snd]. rewrite app_nil_r. split; [lia|]. split; [auto|]. split; [auto|]. split; [left; split; [auto|lia]|]. split; [auto|]. split; [auto|]. split; [discriminate|intros ? []]. }
    pose proof maxIO_pos. destruct k as [m|c].
    + destruct (k_write_ok buf p (Z.min maxIO (n - p)) (Z.max 1 m)) as (got & E1 & E2 & E3); try lia. rewrite E1.
      rewrite E3. replace (n - p - zlen got) with (n - (p + zlen got)) by lia.
      destruct (IH buf n (p + zlen got) (calls ++ [(p, Z.min maxIO (n - p), SGet m)])) as (q & new & Q1 & Q2 & Q3 & Q4 & Q5 & Q6 & Q7 & Q8); try lia.
      exists q, ((p, Z.min maxIO (n - p), SGet m) :: new). split; [lia|]. split; [auto|]. split; [rewrite Q3, <- app_assoc; auto|]. split; [|split; [|split; [|split]]].
      * destruct Q4 as [Q|[(? & ? & a & I & F)|Q]]; [left; auto|right; left; split; [auto|split; [auto|exists a; split; [right; auto|auto]]]|right; right; auto].
      * intros N P. apply Q5; [intros a I; apply N; right; auto|]. cbn [gets] in P. lia.
      * destruct new as [|y r]; [auto|]. apply RC; [discriminate|auto].
      * intros a r E. injection E as <- _. auto.
      * intros a [<-|I]; [cbn [fst snd]; lia|]. specialize (Q8 a I). lia.
    + destruct (Z.eqb_spec c WANT_READ) as [C1|C1]; [|destruct (Z.eqb_spec c WANT_WRITE) as [C2|C2]]; cbn [orb].
      3:{ exists p, [(p, Z.min maxIO (n - p), SErr c)]. cbn [fst snd]. split; [lia|]. split; [auto|]. split; [auto|]. split; [right; left; split; [auto|split; [lia|exists (SErr c); split; [left; auto|cbn; auto]]]|].
          split; [intros N; exfalso; apply (N (SErr c)); [left; auto|cbn; auto]|]. split; [auto|]. split; [intros a r E; injection E as <- _; auto|]. intros a [<-|[]]; cbn [fst snd]; lia. }
      all: destruct (IH buf n p (calls ++ [(p, Z.min maxIO (n - p), SErr c)])) as (q & new & Q1 & Q2 & Q3 & Q4 & Q5 & Q6 & Q7 & Q8); try lia;
        exists q, ((p, Z.min maxIO (n - p), SErr c) :: new); split; [lia|]; split; [auto|]; split; [rewrite Q3, <- app_assoc; auto|]; split; [|split; [|split; [|split]]];
        [destruct Q4 as [Q|[(? & ? & a & I & F)|Q]]; [left; auto|right; left; split; [auto|split; [auto|exists a; split; [right; auto|auto]]]|right; right; auto]
        |intros N P; apply Q5; [intros a I; apply N; right; auto|cbn [gets] in P; lia]
        |destruct new as [|y r]; [auto|]; apply RC; [intros c' _; apply (Q7 y r eq_refl)|auto]
        |intros a r E; injection E as <- _; auto
        |intros a [<-|I]; [cbn [fst snd]; lia|specialize (Q8 a I); lia]].
Qed.
(** write: the library gets a prefix of the n bytes, each once and in order; all of them if it returns; it throws only
    on a real error and returns if enough is taken.  Calls after a WANT answer repeat the call before exactly; no call
    reaches beyond the buffer or over 2^31-1 bytes *)
Theorem C80_write sched buf n : 0 <= n <= zlen buf ->
  let '(r, sent, calls) := ssl_write sched buf 0 n [] [] in
  exists rest, firstn (Z.to_nat n) buf = sent ++ rest /\
    ((r = Ok tt /\ rest = []) \/ (r = Exn /\ rest <> [] /\ exists a, In a sched /\ wfatal a) \/ (r = Fuel /\ rest <> [])) /\
    ((forall a, In a sched -> ~ wfatal a) -> n <= gets sched -> r = Ok tt) /\
    retried calls /\ (forall p size a, In (p, size, a) calls -> 0 <= p /\ 0 < size <= 2147483647 /\ p + size <= n).
Proof.
  intros H. pose proof (write_gen sched buf n 0 [] ltac:(lia) ltac:(lia)) as G. cbv zeta in G. replace (n - 0) with n in G by lia. change (take 0 buf) with (@nil Z) in G.
  destruct (ssl_write sched buf 0 n [] []) as [[r sent] calls]. cbn [fst snd] in G.
  destruct G as (q & new & Q1 & -> & -> & Q4 & Q5 & Q6 & Q7 & Q8). cbn [app].
  exists (skipn (Z.to_nat q) (take n buf)). split; [apply (take_split buf q n); lia|]. split; [|split; [auto|split; [auto|]]].
  - destruct Q4 as [(A & ->)|[(A & B & C)|(A & B)]].
    + left. split; [auto|]. apply length_zero_iff_nil. unfold take. rewrite skipn_length, firstn_length. lia.
    + right; left. split; [auto|]. split; [apply skipn_nonempty; lia|auto].
    + right; right. split; [auto|]. apply skipn_nonempty; lia.
  - intros p size a I. specialize (Q8 _ I). cbn [fst snd] in Q8. change maxIO with 2147483647 in Q8. lia.
Qed.
Example C80_write_ex : ssl_write [SGet 2; SErr WANT_READ; SErr WANT_WRITE; SGet 9] [1; 2; 3; 4; 5; 9] 0 5 [] [] =
  (Ok tt, [1; 2; 3; 4; 5], [(0, 5, SGet 2); (2, 3, SErr WANT_READ); (2, 3, SErr WANT_WRITE); (2, 3, SGet 9)]).
Proof. reflexivity. Qed.

(** ** Lifetime *)
(** connections number k, k+1, ...: each is a socket, possibly given to the library, possibly a handshake, and is then
    ended: close notify, close of the descriptor *)
Inductive sessions : nat -> nat -> list ev -> Prop :=
| s_nil k : sessions k k []
| s_one k m l t : In t [[]; [ESetFd k]; [ESetFd k; EConnect]] -> sessions (S k) m l -> sessions k m (ESocket k :: t ++ [EShutdown; EClose k] ++ l).
Lemma sessions_snoc k m l t : sessions k m l -> In t [[]; [ESetFd m]; [ESetFd m; EConnect]] -> sessions k (S m) (l ++ ESocket m :: t ++ [EShutdown; EClose m]).
Proof.
  induction 1 as [|k m l t0 I SS IH]; intros J.
  - rewrite app_nil_l. rewrite <- (app_nil_r [EShutdown; EClose k]). apply s_one; [auto|constructor].
  - replace ((ESocket k :: t0 ++ [EShutdown; EClose k] ++ l) ++ ESocket m :: t ++ [EShutdown; EClose m])
      with (ESocket k :: t0 ++ [EShutdown; EClose k] ++ (l ++ ESocket m :: t ++ [EShutdown; EClose m])) by (cbn [app]; rewrite <- !app_assoc; reflexivity).
    apply s_one; auto.
Qed.
Definition ok (s : cs) : Prop :=
  (sd s = None /\ exists l, trace s = ENew :: l /\ sessions 0 (next s) l) \/
  (exists k l t, sd s = Some k /\ next s = S k /\ In t [[]; [ESetFd k]; [ESetFd k; EConnect]] /\ trace s = ENew :: l ++ ESocket k :: t /\ sessions 0 k l).
Lemma close_ok_inv s d r c : ok s -> let s' := snd (close s d r c) in sd s' = None /\ exists l, trace s' = ENew :: l /\ sessions 0 (next s') l.
Proof.
  intros [[E K]|(k & l & t & E & N & I & T & S)]; unfold close; rewrite E; [auto|].
  unfold soc_close. cbn [sd next trace].
  assert (G: exists l0, (trace s ++ [EShutdown]) ++ [EClose k] = ENew :: l0 /\ sessions 0 (next s) l0).
  { exists (l ++ ESocket k :: t ++ [EShutdown; EClose k]). split; [|rewrite N; apply sessions_snoc; auto].
    rewrite T. cbn [app]. rewrite <- !app_assoc. reflexivity. }
  destruct (d || c); cbn [snd sd trace next]; auto.
Qed.
Lemma step_ok s o : ok s -> ok (snd (cstep s o)).
Proof.
  intros K. destruct o as [f|d r c]; cbn [cstep].
  - unfold connect. destruct (sd s) as [fd|] eqn:E; [exact K|].
    destruct K as [[_ (l & T & SS)]|(k & l & t & E' & _)]; [|congruence].
    assert (G: forall t, In t [[]; [ESetFd (next s)]; [ESetFd (next s); EConnect]] -> ok (mk_cs (Some (next s)) (S (next s)) (trace s ++ ESocket (next s) :: t))).
    { intros t I. right. exists (next s), l, t. cbn [sd next trace]. split; [auto|]. split; [auto|]. split; [auto|]. split; [rewrite T; auto|auto]. }
    destruct f; cbn [snd sd next trace].
    + left. split; [auto|]. eauto.
    + apply (G []). left; auto.
    + rewrite <- !app_assoc. apply (G [ESetFd (next s)]). right; left; auto.
    + rewrite <- !app_assoc. apply (G [ESetFd (next s); EConnect]). right; right; left; auto.
    + rewrite <- !app_assoc. apply (G [ESetFd (next s); EConnect]). right; right; left; auto.
  - left. apply close_ok_inv. auto.
Qed.
Lemma runs_ok l : forall s, ok s -> ok (snd (cruns s l)).
Proof.
  induction l as [|o l IH]; intros s K; cbn [cruns]; [auto|]. pose proof (step_ok s o K) as K1. destruct (cstep s o) as [b s1]. cbn [snd] in K1.
  specialize (IH s1 K1). destruct (cruns s1 l). auto.
Qed.
(** whatever happens in the object's life: every socket it opened is ended and closed exactly once, the TLS object
    is freed exactly once, and that is the last thing *)
Theorem C80_life l r c : exists bs n t, life true l r c = (Some bs, ENew :: t ++ [EFree]) /\ sessions 0 n t /\ length bs = length l.
Proof.
  unfold life. pose proof (runs_ok l (mk_cs None 0 [ENew])) as K.
  assert (O: ok (mk_cs None 0 [ENew])) by (left; cbn; split; [auto|]; exists []; split; [auto|constructor]). specialize (K O).
  assert (LB: forall l s, length (fst (cruns s l)) = length l).
  { clear. induction l as [|o l IH]; intros s; cbn [cruns]; [auto|]. destruct (cstep s o) as [b s1]. specialize (IH s1). destruct (cruns s1 l). cbn in *. auto. }
  specialize (LB l (mk_cs None 0 [ENew])). destruct (cruns (mk_cs None 0 [ENew]) l) as [bs s]. cbn [fst snd] in *.
  destruct (close_ok_inv s true r c K) as (E & t & T & S). destruct (close s true r c) as [b s1]. cbn [snd] in *.
  unfold soc_close. cbn [sd]. rewrite E. cbn [trace]. rewrite T. exists bs, (next s1), t. split; [reflexivity|auto].
Qed.
Lemma sessions_count k m l : sessions k m l -> forall fd, (k <= fd < m)%nat ->
  exists a b c, l = a ++ ESocket fd :: b ++ EClose fd :: c /\ (forall x, In x a \/ In x b \/ In x c -> x <> ESocket fd /\ x <> EClose fd /\ x <> EFree).
Proof.
  induction 1 as [|k m l t I SS IH]; intros fd H; [lia|].
  assert (LE: forall k m l, sessions k m l -> forall x, In x l -> x <> EFree /\ forall fd, x = ESocket fd \/ x = EClose fd -> (k <= fd < m)%nat).
  { clear. induction 1 as [|k m l t I SS IH]; intros x J; [destruct J|].
    assert (KM: (S k <= m)%nat) by (clear - SS; induction SS; lia).
    cbn [In] in J. rewrite !in_app_iff in J. destruct J as [<-|[J|[J|J]]].
    - split; [discriminate|]. intros fd [E|E]; [injection E as <-; lia|discriminate].
    - cbn [In] in I. destruct I as [<-|[<-|[<-|[]]]]; cbn [In] in J; intuition (subst; try discriminate); match goal with E : _ = _ \/ _ = _ |- _ => destruct E; discriminate | _ => idtac end.
    - cbn [In] in J. destruct J as [<-|[<-|[]]]; (split; [discriminate|]); intros fd [E|E]; try discriminate. injection E as <-. lia.
    - destruct (IH x J) as [A B]. split; [auto|]. intros fd E. specialize (B fd E). lia. }
  destruct (Nat.eq_dec fd k) as [->|N].
  - exists [], (t ++ [EShutdown]), l. split; [cbn [app]; rewrite <- app_assoc; reflexivity|].
    intros x [[]|[J|J]].
    + apply in_app_iff in J. cbn [In] in I, J. destruct I as [<-|[<-|[<-|[]]]]; cbn [In] in J; intuition (subst; discriminate).
    + destruct (LE _ _ _ SS x J) as [A B]. split; [intros ->; specialize (B k (or_introl eq_refl)); lia|]. split; [intros ->; specialize (B k (or_intror eq_refl)); lia|auto].
  - destruct (IH fd) as (a & b & c & -> & NN); [lia|].
    exists (ESocket k :: t ++ [EShutdown; EClose k] ++ a), b, c. split; [cbn [app]; rewrite <- !app_assoc; reflexivity|].
    intros x [J|J]; [|apply NN; auto]. cbn [In] in J. rewrite !in_app_iff in J. destruct J as [<-|[J|[J|J]]].
    + split; [congruence|]. split; discriminate.
    + cbn [In] in I. destruct I as [<-|[<-|[<-|[]]]]; cbn [In] in J; intuition (subst; discriminate).
    + cbn [In] in J. destruct J as [<-|[<-|[]]]; (split; [discriminate|]; split; [congruence|discriminate]).
    + apply NN. auto.
Qed.
(** the same without the grammar: each opened descriptor is closed once, after it was opened, before the free *)
Theorem C80_no_leak l r c bs tr : life true l r c = (bs, tr) -> exists t, tr = t ++ [EFree] /\ ~ In EFree t /\
  forall fd, In (ESocket fd) t -> exists a b d, t = a ++ ESocket fd :: b ++ EClose fd :: d /\ ~ In (ESocket fd) (a ++ b ++ d) /\ ~ In (EClose fd) (a ++ b ++ d).
Proof.
  intros E. destruct (C80_life l r c) as (bs' & n & t & E' & S & _). rewrite E in E'. injection E' as -> ->. exists (ENew :: t). split; [reflexivity|].
  assert (NF: forall k m l, sessions k m l -> ~ In EFree l /\ (forall fd, In (ESocket fd) l -> (k <= fd < m)%nat)).
  { clear. induction 1 as [|k m l t I SS [IH1 IH2]]; [split; [intros []|intros ? []]|].
    assert (KM: (S k <= m)%nat) by (clear - SS; induction SS; lia). cbn [In] in I.
    split.
    - cbn [In]. rewrite !in_app_iff. intros [J|[J|[J|J]]]; [discriminate| |cbn in J; intuition discriminate|auto]. destruct I as [<-|[<-|[<-|[]]]]; cbn in J; intuition discriminate.
    - intros fd. cbn [In]. rewrite !in_app_iff. intros [J|[J|[J|J]]]; [injection J as <-; lia| |cbn in J; intuition discriminate|apply IH2 in J; lia].
      destruct I as [<-|[<-|[<-|[]]]]; cbn in J; intuition discriminate. }
  destruct (NF _ _ _ S) as [N1 N2]. split; [intros [J|J]; [discriminate|auto]|].
  intros fd [J|J]; [discriminate|]. destruct (sessions_count _ _ _ S fd (N2 fd J)) as (a & b & d & -> & H).
  exists (ENew :: a), b, d. split; [reflexivity|].
  assert (Q: forall x, In x ((ENew :: a) ++ b ++ d) -> x <> ESocket fd /\ x <> EClose fd).
  { intros x K. cbn [app In] in K. rewrite !in_app_iff in K. destruct K as [<-|[K|[K|K]]]; [split; discriminate| | |]; destruct (H x) as (H1 & H2 & _); auto. }
  split; intros K; apply Q in K; destruct K; congruence.
Qed.
Theorem C80_new_fails l r c : life false l r c = (None, []).
Proof. reflexivity. Qed.
Example C80_life_ex : life true [Connect CNoHandshake; Close false 0 true; Connect COk] 1 true =
  (Some [false; false; true], [ENew; ESocket 0; ESetFd 0; EConnect; EShutdown; EClose 0; ESocket 1; ESetFd 1; EConnect; EShutdown; EClose 1; EFree]).
Proof. reflexivity. Qed.
(** when connect and close succeed *)
Theorem C80_results s : (forall f, fst (connect s f) = true <-> sd s = None /\ f = COk) /\
  (forall d r c, fst (close s d r c) = true <-> sd s = None \/ d = true \/ (r = 1 /\ c = true)).
Proof.
  split.
  - intros f. unfold connect. destruct (sd s); [cbn; split; [discriminate|intros [? _]; discriminate]|].
    destruct f; cbn [fst]; split; try discriminate; try (intros [_ ?]; discriminate); auto.
  - intros d r c. unfold close, soc_close. destruct (sd s) eqn:E; cbn [sd]; [|cbn [fst]; split; auto].
    destruct (Z.eqb_spec r 1) as [->|]; destruct d, c; cbn [orb fst]; split; intros H; auto; try discriminate; exfalso; destruct H as [H|[H|[H H2]]]; congruence.
Qed.
(** ** Finding: close() of the TLS socket reports an error for an orderly close
    SSL_shutdown answers 0 when our close notify is sent and the peer's has not come yet, the usual case for the side that
    closes first; close() takes that for an error and throws *)
Theorem C80_close_first_finding : exists s s1, connect s COk = (true, s1) /\ fst (close s1 false 0 true) = false /\ sd (snd (close s1 false 0 true)) = None.
Proof. exists (mk_cs None 0 [ENew]). eexists. split; [reflexivity|]. split; reflexivity. Qed.
(** ** Finding: after a failed connect of the TLS socket every further connect fails until close is called
    the socket stays open, so the next connect ends with already connect *)
Theorem C80_reconnect_finding : exists s s1, connect s CNoConnect = (false, s1) /\ (forall f, fst (connect s1 f) = false) /\
  fst (connect (snd (close s1 true 1 true)) COk) = true.
Proof. exists (mk_cs None 0 [ENew]). eexists. split; [reflexivity|]. split; [intros []; reflexivity|reflexivity]. Qed.

Print Assumptions C80_read.
Print Assumptions C80_readSome.
Print Assumptions C80_write.
Print Assumptions C80_life.
Print Assumptions C80_no_leak.
Print Assumptions C80_results.
