(** C98: connections and options of Socket (include/cybozu/socket.hpp) *)
Require Import Verif.Common Verif.FileNameModel Verif.TransferModel Verif.SocketModel.
Import ListNotations. Local Open Scope Z_scope.

(** ** Lemmas on the table of descriptors *)
Lemma fget_nonneg k fd s : fget k fd = Some s -> 0 <= fd.
Proof. unfold fget. destruct (Z.ltb_spec fd 0); [discriminate|auto]. Qed.
Lemma fget_fset k fd s v g : fget k fd = Some s -> fget (fset k fd v) g = if g =? fd then v else fget k g.
Proof.
  intros E. pose proof (fget_nonneg _ _ _ E). unfold fget, fset in *. destruct (Z.ltb_spec fd 0); [lia|]. destruct (nth_error k (Z.to_nat fd)) as [[x|]|] eqn:N; try discriminate.
  destruct (Z.ltb_spec g 0); [destruct (Z.eqb_spec g fd); [lia|reflexivity]|]. destruct (Z.eqb_spec g fd) as [->|M].
  - rewrite nth_error_upd_eq; [destruct v; reflexivity|]. apply nth_error_Some. congruence.
  - rewrite nth_error_upd_ne; [reflexivity|]. lia.
Qed.
Lemma fnew_spec k s : let '(n, k') := fnew k s in fget k (Z.of_nat n) = None /\ forall g, fget k' g = if g =? Z.of_nat n then Some s else fget k g.
Proof.
  induction k as [|[x|] k IH]; cbn [fnew].
  - split; [reflexivity|]. intros g. unfold fget. destruct (Z.ltb_spec g 0); [destruct (Z.eqb_spec g (Z.of_nat 0)); [lia|reflexivity]|]. destruct (Z.eqb_spec g (Z.of_nat 0)) as [->|N]; [reflexivity|]. destruct (Z.to_nat g) eqn:E; [lia|]. cbn. destruct n; reflexivity.
  - destruct (fnew k s) as [n k']. destruct IH as (A & B). assert (X : forall l g, 0 < g -> fget (Some x :: l) g = fget l (g - 1)).
    { intros l g G. unfold fget. destruct (Z.ltb_spec g 0); [lia|]. destruct (Z.ltb_spec (g - 1) 0); [lia|]. replace (Z.to_nat g) with (S (Z.to_nat (g - 1))) by lia. reflexivity. }
    split; [rewrite X by lia; replace (Z.of_nat (S n) - 1) with (Z.of_nat n) by lia; auto|].
    intros g. destruct (Z_lt_dec 0 g) as [G|G]; [rewrite !X, B by auto; destruct (Z.eqb_spec (g - 1) (Z.of_nat n)), (Z.eqb_spec g (Z.of_nat (S n))); auto; lia|].
    destruct (Z.eqb_spec g (Z.of_nat (S n))); [lia|]. unfold fget. destruct (Z.ltb_spec g 0); [reflexivity|]. replace g with 0 by lia. reflexivity.
  - split; [reflexivity|]. intros g. unfold fget. destruct (Z.ltb_spec g 0); [destruct (Z.eqb_spec g (Z.of_nat 0)); [lia|reflexivity]|]. destruct (Z.eqb_spec g (Z.of_nat 0)) as [->|N]; [reflexivity|]. destruct (Z.to_nat g) eqn:E; [lia|]. reflexivity.
Qed.
(** k' is k with one more descriptor *)
Definition adds (k k' : kernel) (fd : Z) (s : sock) : Prop := 0 <= fd /\ fget k fd = None /\ forall g, fget k' g = if g =? fd then Some s else fget k g.
Lemma adds_set k k' fd s s' : adds k k' fd s -> adds k (fset k' fd (Some s')) fd s'.
Proof.
  intros (A & B & C). split; [auto|]. split; [auto|]. intros g. assert (E : fget k' fd = Some s) by (rewrite C, Z.eqb_refl; auto). rewrite (fget_fset _ _ _ _ _ E). destruct (Z.eqb_spec g fd); auto. rewrite C. destruct (Z.eqb_spec g fd); congruence.
Qed.
Lemma adds_get k k' fd s : adds k k' fd s -> fget k' fd = Some s.
Proof. intros (A & B & C). rewrite C, Z.eqb_refl. reflexivity. Qed.
Lemma adds_valid k k' fd s : adds k k' fd s -> isValid fd = true.
Proof. intros (A & _). unfold isValid, INVALID_SOCKET. destruct (Z.eqb_spec fd (-1)); [lia|reflexivity]. Qed.
Lemma sys_socket_spec k fam ok : let '(fd, k') := sys_socket k fam ok in (ok = true /\ adds k k' fd (new_sock fam Fresh)) \/ (ok = false /\ fd = -1 /\ k' = k).
Proof.
  unfold sys_socket. destruct ok; [|right; auto]. pose proof (fnew_spec k (new_sock fam Fresh)) as F. destruct (fnew k (new_sock fam Fresh)) as [n k']. destruct F. left. split; [reflexivity|]. split; [lia|auto].
Qed.

(** ** Waiting *)
Lemma query_get o k msec rd we s : fget k o = Some s -> queryAccept o k msec rd we =
  if 1024 <=? o then (Exn, k) else if msec <? 0 then (Exn, k) else
  let w := we (msec * 1000) in
  match w_err w with Some e => (if 0 <? e then Exn else Ok (0 <? - e), k) | None => let '(b, st) := ready (s_state s) rd w in (Ok b, fset k o (Some (with_state s st))) end.
Proof.
  intros E. pose proof (fget_nonneg _ _ _ E). unfold queryAccept, queryAcceptNoThrow, INVALID_SOCKET, FD_SETSIZE, FD_SET. destruct (Z.eqb_spec o (-1)); [lia|]. destruct (Z.leb_spec 1024 o); [reflexivity|]. unfold FD_SETSIZE. destruct (Z.ltb_spec o 0); [lia|]. destruct (Z.leb_spec 1024 o); [lia|]. cbn [orb]. unfold sys_select.
  destruct (Z.ltb_spec msec 0).
  - assert (X : (Z.quot msec 1000 <? 0) || (Z.rem msec 1000 * 1000 <? 0) = true). { destruct (Z.ltb_spec (Z.quot msec 1000) 0), (Z.ltb_spec (Z.rem msec 1000 * 1000) 0); cbn; auto; exfalso; Z.to_euclidean_division_equations; lia. } rewrite X. reflexivity.
  - assert (X : (Z.quot msec 1000 <? 0) || (Z.rem msec 1000 * 1000 <? 0) = false). { destruct (Z.ltb_spec (Z.quot msec 1000) 0), (Z.ltb_spec (Z.rem msec 1000 * 1000) 0); cbn; auto; exfalso; Z.to_euclidean_division_equations; lia. } rewrite X.
    replace (Z.quot msec 1000 * 1000000 + Z.rem msec 1000 * 1000) with (msec * 1000) by (pose proof (Z.quot_rem' msec 1000); lia). set (w := we (msec * 1000)). cbv zeta.
    destruct (w_err w) as [e|]; [destruct (Z.ltb_spec (- e) 0), (Z.ltb_spec 0 e); auto; lia|]. cbn [fold_left]. destruct (Z.ltb_spec o (o + 1)); [|lia]. rewrite E. destruct (ready (s_state s) rd w) as [[|] st]; reflexivity.
Qed.

(** ** Connecting *)
(** the address a SocketAddr stands for *)
Definition bytes_of (a : sockaddr) : list Z := firstn (Z.to_nat (sa_len a)) (sa_bytes a).
(** when a connection is made: at once or after a wait of the kernel, and with a timeout, when the wait for it is possible (a descriptor below
    FD_SETSIZE, a positive time), is not disturbed, and ends with the connection standing *)
Definition connects (fd msec : Z) (e : cenv) : Prop :=
  if msec =? 0 then c_conn e = CDone \/ c_conn e = CLater true
  else c_nb e = true /\ c_b e = true /\ (c_conn e = CDone \/ (exists b, c_conn e = CLater b) /\ fd < 1024 /\ 0 < msec /\ w_err (c_wait e (msec * 1000)) = None /\ w_conn (c_wait e (msec * 1000)) = Some 0 /\ c_getopt e = true).
(** errors are errno values *)
Definition errnos (w : Z -> wenv) : Prop := forall t, match w_err (w t) with Some x => 0 < x | None => True end.
Theorem C98_connect o k a msec e : errnos (c_wait e) -> let '(r, o', k') := connect o k a msec e in
  (isValid o = true -> r = Exn /\ o' = o /\ k' = k) /\
  (isValid o = false ->
     (c_sock e = false -> r = Exn /\ isValid o' = false /\ k' = k) /\
     (c_sock e = true -> (r = Ok tt \/ r = Exn) /\ (r = Ok tt <-> connects o' msec e) /\
        exists s, adds k k' o' s /\ s_fam s = sa_family a /\ (r = Ok tt -> s_block s = true /\ s_state s = Connected (bytes_of a)))).
Proof.
  intros EN. unfold connect. destruct (isValid o) eqn:V; [split; [auto|discriminate]|].
  pose proof (sys_socket_spec k (sa_family a) (c_sock e)) as S. destruct (sys_socket k (sa_family a) (c_sock e)) as [fd k1]. destruct S as [(CS & A)|(CS & -> & ->)].
  2:{ cbn [isValid INVALID_SOCKET Z.eqb Pos.eqb negb]. split; [discriminate|]. intros _. split; [auto|congruence]. }
  rewrite (adds_valid _ _ _ _ A). cbn [negb]. unfold connects. destruct (Z.eqb_spec msec 0) as [M|M].
  - unfold sys_connect. rewrite (adds_get _ _ _ _ A). cbn [new_sock s_block]. fold (bytes_of a).
    destruct (c_conn e) as [|[|]|] eqn:CC; cbn [Z.ltb Z.compare];
      (split; [discriminate|]; intros _; split; [congruence|]; intros _; split; [auto|]; split; [intuition congruence|]; eexists; split; [eapply adds_set, A|]; split; [reflexivity|]; cbn; intuition congruence).
  - unfold setBlocking, sys_fionbio. rewrite (adds_get _ _ _ _ A). destruct (c_nb e) eqn:NB.
    2:{ split; [discriminate|]. intros _. split; [congruence|]. intros _. split; [auto|]. split; [intuition congruence|]. exists (new_sock (sa_family a) Fresh). repeat split; try apply A; try reflexivity; discriminate. }
    set (s2 := with_block _ _). assert (A2 := adds_set _ _ _ _ s2 A). set (k2 := fset k1 fd (Some s2)) in *. unfold sys_connect at 1. rewrite (adds_get _ _ _ _ A2). cbn [s2 with_block s_block new_sock Z.eqb Pos.eqb]. fold (bytes_of a).
    set (fin := fun (x : res unit * kernel) => let '(go, k) := x in match go with Ok _ => let '(b, k0) := (let '(b, k0) := match fget k fd with Some s => if c_b e then (true, fset k fd (Some (with_block s (0 =? 0)))) else (false, k) | None => (false, k) end in (if b then Ok tt else Exn, k0)) in (b, fd, k0) | x => (x, fd, k) end).
    (* no connection: the descriptor stays with the object *)
    assert (NO : forall k' s', adds k k' fd s' -> s_fam s' = sa_family a -> ~ (c_conn e = CDone \/ (exists b, c_conn e = CLater b) /\ fd < 1024 /\ 0 < msec /\ w_err (c_wait e (msec * 1000)) = None /\ w_conn (c_wait e (msec * 1000)) = Some 0 /\ c_getopt e = true) ->
      (false = true -> (@Exn unit) = Exn /\ fd = o /\ k' = k) /\ (false = false -> (c_sock e = false -> (@Exn unit) = Exn /\ isValid fd = false /\ k' = k) /\ (c_sock e = true -> (Exn = Ok tt \/ (@Exn unit) = Exn) /\ (Exn = Ok tt <-> true = true /\ c_b e = true /\ (c_conn e = CDone \/ (exists b, c_conn e = CLater b) /\ fd < 1024 /\ 0 < msec /\ w_err (c_wait e (msec * 1000)) = None /\ w_conn (c_wait e (msec * 1000)) = Some 0 /\ c_getopt e = true)) /\
        exists s, adds k k' fd s /\ s_fam s = sa_family a /\ (Exn = Ok tt -> s_block s = true /\ s_state s = Connected (bytes_of a))))).
    { intros k' s' A' F' N. split; [discriminate|]. intros _. split; [congruence|]. intros _. split; [auto|]. split; [intuition congruence|]. exists s'. split; [auto|]. split; [auto|]. discriminate. }
    (* a connection: back to blocking mode *)
    assert (YES : forall k' s', adds k k' fd s' -> s_fam s' = sa_family a -> s_state s' = Connected (bytes_of a) -> (c_conn e = CDone \/ (exists b, c_conn e = CLater b) /\ fd < 1024 /\ 0 < msec /\ w_err (c_wait e (msec * 1000)) = None /\ w_conn (c_wait e (msec * 1000)) = Some 0 /\ c_getopt e = true) ->
      let '(r, o', k'') := fin (Ok tt, k') in (false = true -> r = Exn /\ o' = o /\ k'' = k) /\ (false = false -> (c_sock e = false -> r = Exn /\ isValid o' = false /\ k'' = k) /\ (c_sock e = true -> (r = Ok tt \/ r = Exn) /\ (r = Ok tt <-> true = true /\ c_b e = true /\ (c_conn e = CDone \/ (exists b, c_conn e = CLater b) /\ o' < 1024 /\ 0 < msec /\ w_err (c_wait e (msec * 1000)) = None /\ w_conn (c_wait e (msec * 1000)) = Some 0 /\ c_getopt e = true)) /\
        exists s, adds k k'' o' s /\ s_fam s = sa_family a /\ (r = Ok tt -> s_block s = true /\ s_state s = Connected (bytes_of a))))).
    { intros k' s' A' F' S' Y. unfold fin. rewrite (adds_get _ _ _ _ A'). destruct (c_b e) eqn:CB; (split; [discriminate|]; intros _; split; [congruence|]; intros _; split; [auto|]; split; [intuition congruence|]).
      - eexists. split; [eapply adds_set, A'|]. cbn. auto.
      - exists s'. split; [auto|]. split; [auto|]. discriminate. }
    assert (WAIT : forall b, c_conn e = CLater b -> let k3 := fset k2 fd (Some (with_state s2 (Connecting (bytes_of a)))) in
      let '(r, o', k'') := fin (let '(q, k0) := queryAccept fd k3 msec false (c_wait e) in match q with Ok true => if c_getopt e then if so_error k0 fd =? 0 then (Ok tt, k0) else (Exn, k0) else (Exn, k0) | Ok false => (Exn, k0) | Exn => (Exn, k0) | UB => (UB, k0) | Fuel => (Fuel, k0) end) in
      (false = true -> r = Exn /\ o' = o /\ k'' = k) /\ (false = false -> (c_sock e = false -> r = Exn /\ isValid o' = false /\ k'' = k) /\ (c_sock e = true -> (r = Ok tt \/ r = Exn) /\ (r = Ok tt <-> true = true /\ c_b e = true /\ (c_conn e = CDone \/ (exists b, c_conn e = CLater b) /\ o' < 1024 /\ 0 < msec /\ w_err (c_wait e (msec * 1000)) = None /\ w_conn (c_wait e (msec * 1000)) = Some 0 /\ c_getopt e = true)) /\
        exists s, adds k k'' o' s /\ s_fam s = sa_family a /\ (r = Ok tt -> s_block s = true /\ s_state s = Connected (bytes_of a))))).
    { intros b CL k3. assert (A3 := adds_set _ _ _ _ (with_state s2 (Connecting (bytes_of a))) A2). fold k3 in A3. rewrite (query_get _ _ _ _ _ _ (adds_get _ _ _ _ A3)).
      assert (N1 : c_conn e <> CDone) by congruence.
      destruct (Z.leb_spec 1024 fd) as [FS|FS]; [refine (NO _ _ A3 eq_refl _); intros [?|(_ & ? & _)]; [congruence|lia]|].
      destruct (Z.ltb_spec msec 0) as [MS|MS]; [refine (NO _ _ A3 eq_refl _); intros [?|(_ & _ & ? & _)]; [congruence|lia]|].
      specialize (EN (msec * 1000)). cbv zeta. destruct (w_err (c_wait e (msec * 1000))) as [x|] eqn:WE.
      { destruct (Z.ltb_spec 0 x); [|lia]. refine (NO _ _ A3 eq_refl _). intros [?|(_ & _ & _ & ? & _)]; congruence. }
      cbn [with_state s_state ready]. destruct (w_conn (c_wait e (msec * 1000))) as [x|] eqn:WC.
      2:{ set (s4 := with_state _ _). assert (A4 := adds_set _ _ _ _ s4 A3). refine (NO _ _ A4 eq_refl _). intros [?|(_ & _ & _ & _ & ? & _)]; congruence. }
      set (s4 := with_state (with_state s2 (Connecting (bytes_of a))) _). assert (A4 := adds_set _ _ _ _ s4 A3).
      destruct (c_getopt e) eqn:GO; [|refine (NO _ _ A4 eq_refl _); intros [?|(_ & _ & _ & _ & _ & ?)]; congruence].
      unfold so_error. rewrite (adds_get _ _ _ _ A4). cbn [s4 with_state s_state]. destruct (Z.eqb_spec x 0) as [X0|X0].
      - cbn [Z.eqb]. refine (YES _ _ A4 eq_refl _ _); [cbn; destruct (Z.eqb_spec x 0); [reflexivity|lia]|]. right. split; [eauto|]. repeat split; auto; [lia|]. congruence.
      - destruct (Z.eqb_spec x 0); [lia|]. refine (NO _ _ A4 eq_refl _). intros [?|(_ & _ & _ & _ & ? & _)]; congruence. }
    unfold fin in *. clear fin. destruct (c_conn e) as [|b|] eqn:CC.
    + cbn [Z.ltb Z.compare]. refine (YES _ _ (adds_set _ _ _ _ (with_state s2 (Connected (bytes_of a))) A2) eq_refl eq_refl _). auto.
    + specialize (WAIT b eq_refl). destruct b; exact WAIT.
    + cbn [Z.ltb Z.compare Z.eqb Pos.eqb negb]. refine (NO _ _ (adds_set _ _ _ _ (with_state s2 (Failed 111)) A2) eq_refl _). intros [?|((? & ?) & _)]; discriminate.
Qed.

(** whatever connect did to an object that had no descriptor, closing the object gives the descriptors from before *)
Theorem C98_connect_close o k a msec e ok : errnos (c_wait e) -> isValid o = false -> let '(_, o1, k1) := connect o k a msec e in
  let '(_, o2, k2) := close o1 k1 true ok in isValid o2 = false /\ forall g, fget k2 g = fget k g.
Proof.
  intros EN V. pose proof (C98_connect o k a msec e EN) as C. destruct (connect o k a msec e) as [[r o1] k1]. destruct C as (_ & C). destruct (C V) as (C1 & C2).
  destruct (c_sock e).
  - destruct (C2 eq_refl) as (_ & _ & s & A & _). pose proof (adds_valid _ _ _ _ A) as VO. unfold close. unfold isValid in VO. destruct (o1 =? INVALID_SOCKET); [discriminate|]. unfold sys_close. rewrite (adds_get _ _ _ _ A). split; [reflexivity|].
    intros g. rewrite (fget_fset _ _ _ _ _ (adds_get _ _ _ _ A)). destruct A as (_ & B & D). destruct (Z.eqb_spec g o1) as [->|N]; [auto|]. rewrite D. destruct (Z.eqb_spec g o1); congruence.
  - destruct (C1 eq_refl) as (_ & V1 & ->). unfold close. unfold isValid in V1. destruct (o1 =? INVALID_SOCKET) eqn:X; [|discriminate]. split; [reflexivity|auto].
Qed.
(** ** Finding: after a connect that failed at the connection the object keeps its descriptor, so that connecting again throws until it is closed *)
Theorem C98_retry_finding o k a msec e a' msec' e' : errnos (c_wait e) -> isValid o = false -> c_sock e = true -> let '(r, o1, k1) := connect o k a msec e in
  connect o1 k1 a' msec' e' = (Exn, o1, k1).
Proof.
  intros EN V CS. pose proof (C98_connect o k a msec e EN) as C. destruct (connect o k a msec e) as [[r o1] k1]. destruct C as (_ & C). destruct (C V) as (_ & C2). destruct (C2 CS) as (_ & _ & s & A & _).
  unfold connect. rewrite (adds_valid _ _ _ _ A). reflexivity.
Qed.

(** ** Listening *)
(** an address that accepts connections at every interface, of the family and with the port (network byte order) *)
Definition wildcard (fam port : Z) (l : list Z) : Prop :=
  getPort (mk_sa fam l (zlen l)) = Ok port /\ Forall (fun b => b = 0) (skipn 4 l) /\ zlen l = (if fam =? AF_INET then 16 else 28).
(** the families of the clients that reach a listening socket *)
Definition reaches (s : sock) (fam : Z) : Prop := fam = s_fam s \/ (s_fam s = AF_INET6 /\ s_v6only s = false /\ fam = AF_INET).
Lemma land1_bit m : (Z.land m 1 =? 0) = negb (Z.testbit m 0).
Proof. change 1 with (Z.ones 1). rewrite Z.land_ones by lia. rewrite Z.bit0_odd, Zodd_mod. change (2 ^ 1) with 2. unfold Zeq_bool. assert (0 <= m mod 2 < 2) by (apply Z.mod_pos_bound; lia). destruct (Z.eqb_spec (m mod 2) 0) as [E|N]; [rewrite E; reflexivity|]. replace (m mod 2) with 1 by lia. reflexivity. Qed.
Lemma land2_bit m : (Z.land m 2 =? 0) = negb (Z.testbit m 1).
Proof.
  assert (E : Z.land m 2 = if Z.testbit m 1 then 2 else 0).
  { apply Z.bits_inj'. intros n Hn. rewrite Z.land_spec. change 2 with (2 ^ 1) at 1. rewrite Z.pow2_bits_eqb by lia. destruct (Z.eqb_spec 1 n) as [<-|N].
    - destruct (Z.testbit m 1); reflexivity.
    - rewrite andb_false_r. destruct (Z.testbit m 1); [change 2 with (2 ^ 1); rewrite Z.pow2_bits_eqb by lia; destruct (Z.eqb_spec 1 n); [lia|reflexivity]|now rewrite Z.bits_0]. }
  rewrite E. destruct (Z.testbit m 1); reflexivity.
Qed.
Lemma close_adds k k' fd s ok : adds k k' fd s -> let '(_, o, k2) := close fd k' true ok in isValid o = false /\ forall g, fget k2 g = fget k g.
Proof.
  intros A. pose proof (adds_valid _ _ _ _ A) as VO. unfold close. unfold isValid in VO. destruct (fd =? INVALID_SOCKET); [discriminate|]. unfold sys_close. rewrite (adds_get _ _ _ _ A). split; [reflexivity|].
  intros g. rewrite (fget_fset _ _ _ _ _ (adds_get _ _ _ _ A)). destruct A as (_ & B & D). destruct (Z.eqb_spec g fd) as [->|N]; [auto|]. rewrite D. destruct (Z.eqb_spec g fd); congruence.
Qed.
Theorem C98_bind hz o k port mode e : 0 <= port < 65536 -> let '(r, o', k') := bind hz o k port mode e in
  let v4 := Z.testbit mode 0 in let v6 := Z.testbit mode 1 in
  (r = Ok tt \/ r = Exn) /\
  (r = Ok tt <-> b_sock e = true /\ b_reuse e = true /\ (v6 = true -> b_v6 e = true) /\ b_bind e = true /\ b_listen e = true) /\
  (r = Ok tt -> exists s l, adds k k' o' s /\ s_state s = Listening l [] /\ wildcard (s_fam s) port l /\ s_reuse s = true /\ s_block s = true /\
     (reaches s AF_INET6 <-> v6 = true) /\ (reaches s AF_INET <-> v4 = true \/ v6 = false)) /\
  (r = Exn -> isValid o' = false /\ (forall g, fget k' g = fget k g) \/ (exists s, adds k k' o' s) /\ (b_reuse e = false \/ (v6 = true /\ b_v6 e = false))).
Proof.
  intros HP. unfold bind. rewrite land2_bit, land1_bit, negb_involutive. cbv zeta. set (v6 := Z.testbit mode 1). set (v4 := Z.testbit mode 0). clearbody v4 v6. set (fam := if v6 then AF_INET6 else AF_INET).
  pose proof (sys_socket_spec k fam (b_sock e)) as S. destruct (sys_socket k fam (b_sock e)) as [fd k1]. destruct S as [(CS & A)|(CS & -> & ->)].
  2:{ cbn [isValid INVALID_SOCKET Z.eqb Pos.eqb negb]. rewrite CS. repeat split; auto; try (intros; intuition congruence). }
  rewrite (adds_valid _ _ _ _ A), CS. cbn [negb]. unfold setSocketOption at 1, sys_setsockopt at 1. rewrite (adds_get _ _ _ _ A). destruct (b_reuse e) eqn:BR; cbn [negb].
  2:{ repeat split; auto; try (intros; intuition congruence). intros _. right. split; [eauto|auto]. }
  cbn [Z.eqb Pos.eqb SOL_SOCKET SO_REUSEADDR andb negb]. set (s2 := with_opts _ _ _ _ _ _). assert (A2 := adds_set _ _ _ _ s2 A). set (k2 := fset k1 fd (Some s2)) in *.
  assert (STEP : exists k3 s3, (if v6 then setSocketOption hz fd k2 IPV6_V6ONLY (VInt (if negb v4 then 1 else 0)) IPPROTO_IPV6 (b_v6 e) else (Ok tt, k2)) = (if v6 && negb (b_v6 e) then Exn else Ok tt, k3) /\ adds k k3 fd s3 /\
     s_fam s3 = fam /\ s_state s3 = Fresh /\ s_reuse s3 = true /\ s_block s3 = true /\ (v6 = true -> b_v6 e = true -> s_v6only s3 = negb v4)).
  { destruct v6 eqn:V6; [|exists k2, s2; repeat split; auto; try apply A2; discriminate]. unfold setSocketOption, sys_setsockopt. rewrite (adds_get _ _ _ _ A2). destruct (b_v6 e); cbn [negb andb].
    - cbn [Z.eqb Pos.eqb SOL_SOCKET SO_REUSEADDR IPV6_V6ONLY IPPROTO_IPV6 andb s2 with_opts s_fam new_sock fam AF_INET6]. do 2 eexists. split; [reflexivity|]. split; [eapply adds_set, A2|]. cbn. repeat split; auto. destruct v4; reflexivity.
    - exists k2, s2. repeat split; auto; try apply A2; discriminate. }
  destruct STEP as (k3 & s3 & -> & A3 & F3 & ST3 & R3 & B3 & V3). destruct (v6 && negb (b_v6 e)) eqn:V6E.
  { apply andb_prop in V6E as (V6E & BV). apply negb_true_iff in BV. repeat split; auto; try (intros; intuition congruence). intros _. right. split; [eauto|auto]. }
  assert (V6K : v6 = true -> b_v6 e = true) by (destruct v6, (b_v6 e); auto; discriminate).
  set (addr := if v6 then _ else _). unfold sys_bind. rewrite (adds_get _ _ _ _ A3), ST3.
  assert (ADDR : exists r, addr = (if v6 then 10 else 2) :: 0 :: r) by (unfold addr; destruct v6; cbn [app]; eauto). destruct ADDR as (ar & AE). rewrite AE. rewrite <- AE.
  assert (LEN : zlen addr = if fam =? AF_INET then 16 else 28) by (unfold addr, fam; destruct v6; reflexivity).
  assert (FB : (if v6 then 10 else 2) + 256 * 0 = fam) by (unfold fam; destruct v6; reflexivity).
  rewrite FB, F3, Z.eqb_refl, LEN, Z.eqb_refl, !andb_true_r. destruct (b_bind e) eqn:BB.
  2:{ pose proof (close_adds _ _ _ _ (b_close e) A3) as CA. destruct (close fd k3 true (b_close e)) as [[x o'] k4]. destruct CA. repeat split; auto; try (intros; intuition congruence). }
  set (s4 := with_state s3 (Bound addr)). assert (A4 := adds_set _ _ _ _ s4 A3). set (k4 := fset k3 fd (Some s4)) in *.
  unfold sys_listen. rewrite (adds_get _ _ _ _ A4). cbn [s4 with_state s_state]. destruct (b_listen e) eqn:BL.
  2:{ pose proof (close_adds _ _ _ _ (b_close e) A4) as CA. destruct (close fd k4 true (b_close e)) as [[x o'] k5]. destruct CA. repeat split; auto; try (intros; intuition congruence). }
  set (s5 := with_state s4 (Listening addr [])). assert (A5 := adds_set _ _ _ _ s5 A4).
  split; [auto|]. split; [split; auto|]. split; [|discriminate]. intros _. exists s5, addr. split; [auto|]. split; [reflexivity|]. split.
  - cbn [s5 s4 with_state s_fam]. rewrite F3. unfold wildcard, getPort. cbn [sa_family sa_bytes]. unfold addr, fam, htons. assert (HL : port / 256 * 256 + port mod 256 = port) by lia. set (hi := port / 256) in *. set (lo := port mod 256) in *. clearbody hi lo. rewrite <- HL. destruct v6; (split; [reflexivity|split; [repeat constructor|reflexivity]]).
  - cbn [s5 s4 with_state s_reuse s_block]. split; [auto|]. split; [auto|]. unfold reaches. cbn [s5 s4 with_state s_fam s_v6only]. rewrite F3. unfold fam, AF_INET6, AF_INET. destruct v6 eqn:V6.
    + rewrite (V3 eq_refl (V6K eq_refl)). destruct v4; cbn; intuition congruence.
    + intuition congruence.
Qed.
(** ** Finding: bind of an object that has a descriptor takes a new one and leaves the old one open without an owner *)
Theorem C98_bind_leak_finding hz o k port mode e s : 0 <= port < 65536 -> fget k o = Some s -> let '(r, o', k') := bind hz o k port mode e in o' <> o /\ fget k' o = Some s.
Proof.
  intros HP E. pose proof (C98_bind hz o k port mode e HP) as B. pose proof (fget_nonneg _ _ _ E). destruct (bind hz o k port mode e) as [[r o'] k']. destruct B as ([->| ->] & _ & B1 & B2).
  - destruct (B1 eq_refl) as (s' & l & (_ & N & G) & _). assert (o' <> o) by congruence. split; [auto|]. rewrite G. destruct (Z.eqb_spec o o'); congruence.
  - destruct (B2 eq_refl) as [(V & G)|((s' & (_ & N & G)) & _)].
    + rewrite G. split; [|auto]. intros ->. unfold isValid, INVALID_SOCKET in V. destruct (Z.eqb_spec o (-1)); [lia|discriminate].
    + assert (o' <> o) by congruence. split; [auto|]. rewrite G. destruct (Z.eqb_spec o o'); congruence.
Qed.

(** ** Waiting for and accepting connections *)
(** queryAccept of a listening socket: true exactly when a connection is pending by the end of the time given (milliseconds) *)
Theorem C98_query o k msec w s l q : errnos w -> fget k o = Some s -> s_state s = Listening l q -> let '(r, k') := queryAccept o k msec true w in
  let q' := q ++ w_arrive (w (msec * 1000)) in
  if (o <? 1024) && (0 <=? msec) && match w_err (w (msec * 1000)) with None => true | Some _ => false end
  then (r = Ok true /\ q' <> [] \/ r = Ok false /\ q' = []) /\ forall g, fget k' g = if g =? o then Some (with_state s (Listening l q')) else fget k g
  else r = Exn /\ k' = k.
Proof.
  intros EN E ST. rewrite (query_get _ _ _ _ _ _ E). specialize (EN (msec * 1000)). cbv zeta. destruct (Z.leb_spec 1024 o), (Z.ltb_spec o 1024); try lia; cbn [andb]; [auto|]. destruct (Z.ltb_spec msec 0), (Z.leb_spec 0 msec); try lia; cbn [andb]; [auto|].
  destruct (w_err (w (msec * 1000))) as [x|]; [destruct (Z.ltb_spec 0 x); [auto|lia]|]. rewrite ST. cbn [ready]. split.
  - destruct (q ++ w_arrive (w (msec * 1000))); [right|left]; split; auto; discriminate.
  - intros g. apply (fget_fset _ _ _ _ _ E).
Qed.
(** on every socket and with every outcome of the wait: an answer or an exception, never a write outside the fd_set *)
Theorem C98_query_safe o k msec b w : -1 <= o -> exists a, fst (queryAccept o k msec b w) = Ok a \/ fst (queryAccept o k msec b w) = Exn.
Proof.
  intros H. unfold queryAccept, queryAcceptNoThrow, FD_SET, INVALID_SOCKET, FD_SETSIZE. destruct (Z.eqb_spec o (-1)); [exists true; auto|]. destruct (Z.leb_spec 1024 o); [exists true; auto|]. unfold FD_SETSIZE. destruct (Z.ltb_spec o 0); [lia|]. destruct (Z.leb_spec 1024 o); [lia|]. cbn [orb]. destruct (sys_select _ _ _ _ _ _ _) as [m k']. cbn [fst]. exists (0 <? m). destruct (m <? 0); auto.
Qed.
(** the address of a client as the kernel reports it *)
Definition inet (fam : Z) (p : list Z) : Prop := exists r, p = fam :: 0 :: r /\ (fam = AF_INET /\ zlen p = 16 \/ fam = AF_INET6 /\ zlen p = 28).
Lemma verify_cases a : 2 <= zlen (sa_bytes a) -> (exists b, verify a = Ok b) \/ verify a = Exn.
Proof.
  unfold verify. destruct (sa_bytes a) as [|b0 [|b1 r]]; cbn [zlen length Z.of_nat]; [unfold zlen; cbn; lia|unfold zlen; cbn; lia|]. intros _. unfold rd. change (Z.to_nat 0) with 0%nat. change (Z.to_nat 1) with 1%nat. cbn [Z.ltb Z.compare nth_error Common.bind].
  destruct ((sa_len a =? 16) && _); [eauto|]. destruct ((sa_len a =? 28) && _); eauto.
Qed.
(** accept gives the oldest pending connection a descriptor of its own, and the caller the client's address *)
Theorem C98_accept o k client pa arrive ok s l q : fget k o = Some s -> s_state s = Listening l q -> match pa with Some a => zlen (sa_bytes a) = 28 | None => True end ->
  let '(r, c, pa', k') := accept o k client pa arrive ok in
  (ok = false -> r = Exn /\ isValid c = false /\ k' = k) /\
  (ok = true -> q ++ arrive = [] -> s_block s = true -> r = Fuel /\ c = client /\ k' = k) /\
  (forall p rest, ok = true -> q ++ arrive = p :: rest ->
     fget k c = None /\ c <> o /\ 0 <= c /\
     (forall g, fget k' g = if g =? c then Some (new_sock (s_fam s) (Connected p)) else if g =? o then Some (with_state s (Listening l rest)) else fget k g) /\
     (pa = None -> r = Ok tt) /\
     (pa <> None -> forall fam, inet fam p -> r = Ok tt /\ exists a, pa' = Some a /\ sa_family a = fam /\ bytes_of a = p)).
Proof.
  intros E ST PA. unfold accept, sys_accept. rewrite E, ST. destruct ok; cbn [negb].
  2:{ assert (X : forall r c (p : option sockaddr), r = @Exn unit -> isValid c = false -> let '(r0, c0, _, k') := (r, c, p, k) in (false = false -> r0 = Exn /\ isValid c0 = false /\ k' = k) /\ (false = true -> q ++ arrive = [] -> s_block s = true -> r0 = Fuel /\ c0 = client /\ k' = k) /\ (forall p0 rest, false = true -> q ++ arrive = p0 :: rest -> fget k c0 = None /\ c0 <> o /\ 0 <= c0 /\ (forall g, fget k' g = if g =? c0 then Some (new_sock (s_fam s) (Connected p0)) else if g =? o then Some (with_state s (Listening l rest)) else fget k g) /\ (pa = None -> r0 = Ok tt) /\ (pa <> None -> forall fam, inet fam p0 -> r0 = Ok tt /\ exists a, p = Some a /\ sa_family a = fam /\ bytes_of a = p0))).
      { intros r c p -> V. split; [auto|]. split; discriminate. }
      destruct pa as [a|]; [|apply X; reflexivity]. cbn [Z.ltb Z.compare]. destruct (verify_cases (mk_sa (sa_family a) (sa_bytes a) 28)) as [(a2 & ->)| ->]; [cbn [sa_bytes]; lia| |]; apply X; reflexivity. }
  destruct (q ++ arrive) as [|p rest] eqn:Q.
  { destruct (s_block s) eqn:SB; [|].
    - split; [discriminate|]. split; [auto|]. discriminate.
    - destruct pa as [a|]; [|split; [discriminate|split; [intros; congruence|discriminate]]]. cbn [Z.ltb Z.compare]. destruct (verify _); (split; [discriminate|split; [intros; congruence|discriminate]]). }
  set (k1 := fset k o _). pose proof (fnew_spec k1 (new_sock (s_fam s) (Connected p))) as F. destruct (fnew k1 (new_sock (s_fam s) (Connected p))) as [n k2]. destruct F as (F1 & F2).
  assert (G1 : forall g, fget k1 g = if g =? o then Some (with_state s (Listening l rest)) else fget k g) by (intros; apply (fget_fset _ _ _ _ _ E)).
  assert (NO : Z.of_nat n <> o) by (intros X; rewrite G1, X, Z.eqb_refl in F1; discriminate).
  assert (FN : fget k (Z.of_nat n) = None) by (rewrite G1 in F1; destruct (Z.eqb_spec (Z.of_nat n) o); congruence).
  assert (V : isValid (Z.of_nat n) = true) by (unfold isValid, INVALID_SOCKET; destruct (Z.eqb_spec (Z.of_nat n) (-1)); [lia|reflexivity]).
  assert (G : forall g, fget k2 g = if g =? Z.of_nat n then Some (new_sock (s_fam s) (Connected p)) else if g =? o then Some (with_state s (Listening l rest)) else fget k g) by (intros g; rewrite F2, G1; reflexivity).
  assert (X : forall (r : res unit) p', (pa = None -> r = Ok tt) -> (pa <> None -> forall fam, inet fam p -> r = Ok tt /\ exists a, p' = Some a /\ sa_family a = fam /\ bytes_of a = p) ->
     let '(r0, c, pa', k') := (r, Z.of_nat n, p', k2) in (true = false -> r0 = Exn /\ isValid c = false /\ k' = k) /\ (true = true -> p :: rest = [] -> s_block s = true -> r0 = Fuel /\ c = client /\ k' = k) /\ (forall p0 rest0, true = true -> p :: rest = p0 :: rest0 -> fget k c = None /\ c <> o /\ 0 <= c /\ (forall g, fget k' g = if g =? c then Some (new_sock (s_fam s) (Connected p0)) else if g =? o then Some (with_state s (Listening l rest0)) else fget k g) /\ (pa = None -> r0 = Ok tt) /\ (pa <> None -> forall fam, inet fam p0 -> r0 = Ok tt /\ exists a, pa' = Some a /\ sa_family a = fam /\ bytes_of a = p0))).
  { intros r p' R1 R2. split; [discriminate|]. split; [discriminate|]. intros p0 rest0 _ PE. injection PE as <- <-. split; [exact FN|]. split; [exact NO|]. split; [lia|]. split; [exact G|]. split; [exact R1|exact R2]. }
  assert (VR : (if isValid (Z.of_nat n) then Ok tt else Exn) = Ok tt) by now rewrite V.
  destruct pa as [a|]; [|rewrite VR; refine (X (Ok tt) None _ _); [reflexivity|congruence]].
  destruct (Z.ltb_spec (Z.of_nat n) 0); [lia|]. set (bs := blit (sa_bytes a) 0 (firstn 28 p)). set (a1 := mk_sa (sa_family a) bs (zlen p)).
  assert (VER : forall fam, inet fam p -> verify a1 = Ok (mk_sa fam bs (zlen p)) /\ bytes_of (mk_sa fam bs (zlen p)) = p).
  { intros fam (r & PE & FM). assert (LP : (length p <= 28)%nat) by (unfold zlen in FM; lia). assert (BS : bs = p ++ skipn (length p) (sa_bytes a)) by (unfold bs; rewrite (firstn_all2 p) by exact LP; reflexivity).
    split.
    - assert (N0 : nth_error bs 0 = Some fam) by (rewrite BS, PE; reflexivity). assert (N1 : nth_error bs 1 = Some 0) by (rewrite BS, PE; reflexivity).
      unfold verify, rd. change (Z.to_nat 0) with 0%nat. change (Z.to_nat 1) with 1%nat. cbn [a1 sa_bytes sa_len Z.ltb Z.compare]. rewrite N0, N1. cbn [Common.bind]. destruct FM as [(-> & L)|(-> & L)]; rewrite L; reflexivity.
    - unfold bytes_of. cbn [sa_len sa_bytes]. rewrite BS. unfold zlen. rewrite Nat2Z.id, firstn_app, firstn_all, Nat.sub_diag. cbn. now rewrite app_nil_r. }
  destruct (verify a1) as [a2| | |] eqn:VV; rewrite ?VR; [refine (X (Ok tt) (Some a2) _ _)|refine (X Exn (Some a1) _ _)|refine (X UB (Some a1) _ _)|refine (X Fuel (Some a1) _ _)]; try congruence; intros _ fam I; destruct (VER fam I) as (V1 & V2); try discriminate. injection V1 as ->. split; [reflexivity|]. eexists. split; [reflexivity|]. auto.
Qed.
(** ** Finding: accept into an object that has a descriptor leaves that descriptor open without an owner *)
Theorem C98_accept_leak_finding o k client pa arrive ok s l q c : fget k o = Some s -> s_state s = Listening l q -> q ++ arrive <> [] -> match pa with Some a => zlen (sa_bytes a) = 28 | None => True end ->
  fget k client = Some c -> client <> o -> let '(r, client', _, k') := accept o k client pa arrive ok in client' <> client /\ fget k' client = Some c.
Proof.
  intros E ST Q PA C N. pose proof (fget_nonneg _ _ _ C). pose proof (C98_accept o k client pa arrive ok s l q E ST PA) as A. destruct (accept o k client pa arrive ok) as [[[r c'] pa'] k']. destruct A as (A1 & _ & A2). destruct ok.
  - destruct (q ++ arrive) as [|p rest] eqn:QE; [congruence|]. destruct (A2 p rest eq_refl eq_refl) as (B1 & _ & _ & B2 & _). assert (c' <> client) by congruence. split; [auto|]. rewrite B2. destruct (Z.eqb_spec client c'); [congruence|]. destruct (Z.eqb_spec client o); congruence.
  - destruct (A1 eq_refl) as (_ & V & ->). split; [|auto]. intros ->. unfold isValid, INVALID_SOCKET in V. destruct (Z.eqb_spec client (-1)); [lia|discriminate].
Qed.
Lemma Forall2_impl {A B} (P Q : A -> B -> Prop) l m : (forall a b, P a b -> Q a b) -> Forall2 P l m -> Forall2 Q l m.
Proof. intros H F. induction F; constructor; auto. Qed.
(** a server that accepts n times, each time into a new object: the clients' descriptors *)
Fixpoint serve (o : Z) (k : kernel) (n : nat) : res (list Z) * kernel :=
  match n with
  | O => (Ok [], k)
  | S n =>
    let '(r, c, _, k) := accept o k (-1) None [] true in
    match r with
    | Ok _ => let '(r, k) := serve o k n in (match r with Ok l => Ok (c :: l) | x => x end, k)
    | Exn => (Exn, k) | UB => (UB, k) | Fuel => (Fuel, k)
    end
  end.
(** the pending connections are accepted in the order they came, each once *)
Theorem C98_serve o l : forall q k s, fget k o = Some s -> s_state s = Listening l q -> let '(r, k') := serve o k (length q) in
  exists fds, r = Ok fds /\ Forall2 (fun fd p => fget k fd = None /\ exists t, fget k' fd = Some t /\ s_state t = Connected p) fds q /\ NoDup fds /\
  (exists s', fget k' o = Some s' /\ s_state s' = Listening l []) /\ forall g, g <> o -> ~ In g fds -> fget k' g = fget k g.
Proof.
  induction q as [|p q IH]; intros k s E ST; cbn [length serve].
  - exists []. repeat split; auto; [constructor|eauto].
  - pose proof (C98_accept o k (-1) None [] true s l (p :: q) E ST I) as A. destruct (accept o k (-1) None [] true) as [[[r c] pa'] k1]. destruct A as (_ & _ & A). destruct (A p q eq_refl) as (A1 & A2 & A3 & A4 & A5 & _); [now rewrite app_nil_r|]. rewrite (A5 eq_refl).
    assert (E1 : fget k1 o = Some (with_state s (Listening l q))) by (rewrite A4; destruct (Z.eqb_spec o c); [congruence|]; rewrite Z.eqb_refl; reflexivity).
    specialize (IH k1 _ E1 eq_refl). destruct (serve o k1 (length q)) as [r2 k2]. destruct IH as (fds & -> & F & ND & L & O).
    assert (C1 : fget k1 c = Some (new_sock (s_fam s) (Connected p))) by (rewrite A4, Z.eqb_refl; reflexivity).
    assert (NI : ~ In c fds). { intros X. clear -X F C1. induction F as [|fd p0 fds q (H1 & H2) F IH]; [destruct X|]. destruct X as [->|X]; [congruence|auto]. }
    exists (c :: fds). split; [reflexivity|]. split; [|split; [constructor; auto|split; [exact L|]]].
    + constructor; [split; [exact A1|exists (new_sock (s_fam s) (Connected p)); split; [rewrite O; auto|reflexivity]]|].
      revert F. apply Forall2_impl. intros fd p0 (H1 & H2). split; [|exact H2]. rewrite A4 in H1. destruct (fd =? c); [discriminate|]. destruct (fd =? o); [discriminate|auto].
    + intros g G1 G2. rewrite O by (auto; intros X; apply G2; right; auto). rewrite A4. destruct (Z.eqb_spec g c) as [->|]; [exfalso; apply G2; left; auto|]. destruct (Z.eqb_spec g o); congruence.
Qed.

(** ** Options *)
(** the timeouts read back are the ones set, rounded up to the clock tick of the kernel (tick milliseconds, 1 for 1000 Hz) *)
Definition rounds_up (tick msec m : Z) : Prop := (tick | m) /\ msec <= m < msec + tick.
Lemma ceil_tick tick r : 0 < tick -> 0 <= r -> let u := (r * 1000 + 1000 * tick - 1) / (1000 * tick) in r <= u * tick < r + tick.
Proof.
  intros T R u. assert (E : u * (1000 * tick) <= r * 1000 + 1000 * tick - 1 < (u + 1) * (1000 * tick)).
  { unfold u. rewrite (Z.mul_comm _ (1000 * tick)), (Z.mul_comm (_ + 1)). split; [apply Z.mul_div_le; lia|]. apply Z.mul_succ_div_gt. lia. }
  clearbody u. replace (u * (1000 * tick)) with (1000 * (u * tick)) in E by ring. replace ((u + 1) * (1000 * tick)) with (1000 * (u * tick) + 1000 * tick) in E by ring. lia.
Qed.
Lemma timeo_round hz tick msec : 0 < tick -> hz * tick = 1000 -> 0 <= msec -> msec + tick <= 2 ^ 31 -> exists t, set_timeo hz (Z.quot msec 1000) (Z.rem msec 1000 * 1000) = Some t /\ (msec = 0 -> t = TInf) /\
  exists m, (let '(sec, usec) := get_timeo hz t in to_int (sec * 1000 + usec / 1000)) = m /\ rounds_up tick msec m.
Proof.
  intros T HT M B. assert (H0 : 0 < hz) by nia. assert (HD : 1000000 / hz = 1000 * tick) by (symmetry; apply Z.div_unique with 0; [lia|]; replace (hz * (1000 * tick)) with (1000 * (hz * tick)) by ring; lia).
  rewrite Z.quot_div_nonneg, Z.rem_mod_nonneg by lia. pose proof (Z.div_mod msec 1000 ltac:(lia)) as DM. pose proof (Z.mod_pos_bound msec 1000 ltac:(lia)) as MB. assert (SN : 0 <= msec / 1000) by (apply Z.div_pos; lia). set (s := msec / 1000) in *. set (r := msec mod 1000) in *. clearbody s r.
  unfold set_timeo. destruct (Z.ltb_spec (r * 1000) 0); [lia|]. destruct (Z.leb_spec 1000000 (r * 1000)); [lia|]. destruct (Z.ltb_spec s 0); [lia|]. cbn [orb].
  destruct ((s =? 0) && (r * 1000 =? 0)) eqn:Z0.
  { apply andb_prop in Z0 as (Z1 & Z2). apply Z.eqb_eq in Z1, Z2. exists TInf. split; [reflexivity|]. split; [auto|]. exists 0. split; [reflexivity|]. split; [exists 0; lia|lia]. }
  assert (NZ : msec <> 0). { intros ->. assert (s = 0 /\ r = 0) as (-> & ->) by lia. discriminate. }
  rewrite HD. pose proof (ceil_tick tick r T ltac:(lia)) as U. cbv zeta in U. set (u := (r * 1000 + 1000 * tick - 1) / (1000 * tick)) in *. clearbody u.
  assert (NT : (s * hz + u) * tick = s * 1000 + u * tick) by (rewrite Z.mul_add_distr_r, <- Z.mul_assoc, HT; ring). set (n := s * hz + u) in *. clearbody n.
  exists (TTicks n). split; [reflexivity|]. split; [congruence|]. exists (n * tick). split; [|split; [exists n; ring|lia]].
  unfold get_timeo. assert (E : n mod hz * 1000000 / hz = n mod hz * tick * 1000). { replace (n mod hz * 1000000) with (n mod hz * tick * 1000 * hz) by (replace 1000000 with (1000 * (hz * tick)) by (rewrite HT; reflexivity); ring). apply Z.div_mul; lia. }
  rewrite E, Z.div_mul by lia. assert (F : n / hz * 1000 + n mod hz * tick = n * tick). { rewrite <- HT at 1. rewrite (Z.div_mod n hz) at 3 by lia. ring. }
  rewrite F. clear E F. unfold to_int. rewrite Z.mod_small by lia. lia.
Qed.
Theorem C98_timeout hz tick o k s msec : 0 < tick -> hz * tick = 1000 -> fget k o = Some s -> 0 <= msec -> msec + tick <= 2 ^ 31 ->
  (let '(r, k') := setSendTimeout hz o k msec true in r = Ok tt /\ (exists m, getSendTimeout hz o k' true = Ok m /\ rounds_up tick msec m) /\ getReceiveTimeout hz o k' true = getReceiveTimeout hz o k true /\ (forall g, g <> o -> fget k' g = fget k g)) /\
  (let '(r, k') := setReceiveTimeout hz o k msec true in r = Ok tt /\ (exists m, getReceiveTimeout hz o k' true = Ok m /\ rounds_up tick msec m) /\ getSendTimeout hz o k' true = getSendTimeout hz o k true /\ (forall g, g <> o -> fget k' g = fget k g)).
Proof.
  intros T HT E M B. destruct (timeo_round hz tick msec T HT M B) as (t & S & _ & m & G & R).
  assert (OTH : forall v g, g <> o -> fget (fset k o v) g = fget k g) by (intros v g N; rewrite (fget_fset _ _ _ _ _ E); destruct (Z.eqb_spec g o); congruence).
  assert (OWN : forall v, fget (fset k o v) o = v) by (intros v; rewrite (fget_fset _ _ _ _ _ E), Z.eqb_refl; reflexivity).
  unfold setSendTimeout, setReceiveTimeout, getSendTimeout, getReceiveTimeout, setTimeout, setSocketOption, sys_setsockopt, getTimeout. rewrite E, S. cbn [negb]. unfold SOL_SOCKET, SO_SNDTIMEO, SO_RCVTIMEO. cbn [Z.eqb Pos.eqb negb]. rewrite !OWN. cbn [with_opts s_snd s_rcv].
  split; (split; [reflexivity|]; split; [exists m; split; [destruct (get_timeo hz t); congruence|auto]|]; split; [reflexivity|auto]).
Qed.
(** ** Finding: a negative time of whole seconds is accepted, reads back as 0 (no timeout) and elapses at once *)
Theorem C98_negative_finding hz o k s n : fget k o = Some s -> 0 < n -> let '(r, k') := setSendTimeout hz o k (- (n * 1000)) true in
  r = Ok tt /\ getSendTimeout hz o k' true = Ok 0 /\ exists s', fget k' o = Some s' /\ s_snd s' = TNow.
Proof.
  intros E N. assert (OWN : forall v, fget (fset k o v) o = v) by (intros v; rewrite (fget_fset _ _ _ _ _ E), Z.eqb_refl; reflexivity).
  unfold setSendTimeout, getSendTimeout, setTimeout, setSocketOption, sys_setsockopt, getTimeout. rewrite E. replace (- (n * 1000)) with ((- n) * 1000) by lia. rewrite Z.rem_mul, Z.quot_mul by lia. unfold set_timeo. cbn [Z.mul Z.ltb Z.compare Z.leb orb negb SOL_SOCKET Z.eqb Pos.eqb]. destruct (Z.ltb_spec (- n) 0); [|lia]. unfold SO_SNDTIMEO. cbn [Z.eqb Pos.eqb]. rewrite OWN. cbn. split; [reflexivity|]. split; [reflexivity|]. eauto.
Qed.
(** ** Finding: at 250 Hz the longest timeout reads back negative *)
Theorem C98_longest_finding : let k := [Some (new_sock 2 Fresh)] in getSendTimeout 250 0 (snd (setSendTimeout 250 0 k 2147483647 true)) true = Ok (-2147483648).
Proof. reflexivity. Qed.
(** ** Finding: setLinger sets the option from the address of a local variable; the two arguments are ignored, and linger is on unless the low half of the address is 0 *)
Theorem C98_linger_finding hz o k s a : fget k o = Some s -> 0 <= a < 2 ^ 64 -> forall onoff linger, let '(r, k') := setLinger hz o k onoff linger a true in
  r = Ok tt /\ exists s', fget k' o = Some s' /\ s_linger s' = (a mod 2 ^ 32, a / 2 ^ 32).
Proof.
  intros E A onoff linger. unfold setLinger, setSocketOption, sys_setsockopt. rewrite E. cbn [negb SOL_SOCKET SO_LINGER Z.eqb Pos.eqb andb]. split; [reflexivity|]. rewrite (fget_fset _ _ _ _ _ E), Z.eqb_refl. eexists. split; reflexivity.
Qed.

(** ** Closing *)
(** waitForClose returns exactly when the peer closes without sending any more; interruptions are retried *)
Theorem C98_waitForClose o shutOk sched src : isValid o = true ->
  (waitForClose o shutOk sched src = Ok tt <-> shutOk = true /\ src = [] /\ exists m n r, sched = repeat KEintr m ++ KN n :: r) /\ waitForClose o shutOk sched src <> UB.
Proof.
  intros V. unfold waitForClose. unfold isValid in V. destruct (o =? INVALID_SOCKET); [discriminate|]. destruct shutOk; cbn [negb]; [|split; [intuition congruence|discriminate]].
  induction sched as [|x r IH].
  - cbn. split; [|discriminate]. split; [discriminate|]. intros (_ & _ & m & n & r & X). destruct m; discriminate.
  - destruct x as [| |n]; cbn [readSome].
    + destruct IH as (IH & U). split; [|exact U]. rewrite IH. split; intros (A & B & m & n & r' & E); (split; [auto|]; split; [auto|]).
      * exists (S m), n, r'. cbn. now rewrite E.
      * destruct m as [|m]; cbn in E; [discriminate|]. injection E as E. eauto.
    + cbn. split; [|discriminate]. split; [discriminate|]. intros (_ & _ & m & n & r' & E). destruct m; discriminate.
    + replace (Z.min maxIO 1) with 1 by reflexivity. cbn [Z.ltb Z.compare orb]. change (zlen [0]) with 1. cbn [Z.add Z.ltb Z.compare Pos.compare Pos.compare_cont fst]. unfold k_read. destruct src as [|b src].
      * change (zlen []) with 0. replace (Z.min (Z.min 1 0) (Z.max 1 n)) with 0 by lia. cbn. split; [|discriminate]. split; [|auto]. intros _. split; [auto|]. split; [auto|]. exists O, n, r. reflexivity.
      * assert (L : 1 <= zlen (b :: src)) by (unfold zlen; cbn [length]; lia). replace (Z.min (Z.min 1 (zlen (b :: src))) (Z.max 1 n)) with 1 by lia. cbn. split; [|discriminate]. split; [discriminate|]. intros (_ & X & _). discriminate.
Qed.
(** ** Finding: with epoll, queryAcceptNoThrow throws when the descriptor cannot be watched, waits for ever for the time 0 (select polls), and evaluates a member of a null pointer when it stops watching *)
Theorem C98_epoll_finding o msec ret : isValid o = true ->
  (forall e, queryAcceptEpoll o msec None (Some e) ret = (Exn, None)) /\ snd (queryAcceptEpoll o 0 None None ret) = Some (-1) /\ fst (queryAcceptEpoll o msec None None ret) = UB.
Proof. intros V. unfold queryAcceptEpoll. unfold isValid in V. destruct (o =? INVALID_SOCKET); [discriminate|]. auto. Qed.

(** ** Examples *)
(** 127.0.0.1:80, reached after a wait of 5 milliseconds; refused later *)
Definition ex_addr := mk_sa 2 ([2; 0; 0; 80; 127; 0; 0; 1] ++ repeat 0 20) 16.
Definition ex_w (e : Z) (t : Z) : wenv := mk_w None [] (if t <? 5000 then None else Some e).
Example C98_connect_example : errnos (ex_w 0) /\ errnos (ex_w 111) /\
  let k := [Some (new_sock 2 Fresh); None; Some (new_sock 10 Fresh)] in
  let run e msec := connect (-1) k ex_addr msec (mk_c true true (CLater true) (ex_w e) true true) in
  fst (run 0 5) = (Ok tt, 1) /\ fst (run 0 4) = (Exn, 1) /\ fst (run 111 10) = (Exn, 1) /\ fst (run 0 (-5)) = (Exn, 1) /\
  fget (snd (run 0 5)) 1 = Some (new_sock 2 (Connected [2; 0; 0; 80; 127; 0; 0; 1; 0; 0; 0; 0; 0; 0; 0; 0])).
Proof. repeat split; intro; exact I. Qed.
Example C98_bind_example : let k := [Some (new_sock 2 Fresh)] in
  (let '(r, o, k') := bind 1000 (-1) k 8080 3 (mk_b true true true true true true) in r = Ok tt /\ o = 1 /\ exists s, fget k' 1 = Some s /\ s_v6only s = false /\ s_fam s = 10 /\ s_state s = Listening ([10; 0; 31; 144] ++ repeat 0 24) []) /\
  (let '(r, o, k') := bind 1000 (-1) k 8080 1 (mk_b true true true true false true) in r = Exn /\ o = -1 /\ fget k' 1 = None).
Proof. split; [|repeat split]. split; [reflexivity|]. split; [reflexivity|]. eexists. repeat split. Qed.
Definition ex_listen : sock := new_sock 2 (Listening ([2; 0; 0; 80] ++ repeat 0 12) [[2; 0; 4; 1; 1; 2; 3; 4] ++ repeat 0 8; [2; 0; 4; 2; 1; 2; 3; 4] ++ repeat 0 8]).
Example C98_serve_example : let k := [Some (new_sock 2 Fresh); Some ex_listen; None] in fst (serve 1 k 2) = Ok [2; 3] /\ fst (serve 1 k 3) = Fuel /\
  fst (queryAccept 1 k 0 true (fun _ => mk_w None [] None)) = Ok true /\ fst (queryAccept 1 (snd (serve 1 k 2)) 1000 true (fun _ => mk_w None [] None)) = Ok false.
Proof. repeat split. Qed.
Example C98_accept_example : let k := [Some ex_listen] in let '(r, c, pa, _) := accept 0 k (-1) (Some (mk_sa 0 (repeat 7 28) 0)) [] true in
  r = Ok tt /\ c = 1 /\ exists a, pa = Some a /\ getPort a = Ok 1025 /\ inet 2 (bytes_of a).
Proof. cbn. repeat split. eexists. split; [reflexivity|]. split; [reflexivity|]. eexists. split; [reflexivity|]. left. auto. Qed.
Example C98_timeout_example : let k := [Some (new_sock 2 Fresh)] in let k1 := snd (setSendTimeout 250 0 k 1501 true) in
  getSendTimeout 250 0 k1 true = Ok 1504 /\ getReceiveTimeout 250 0 k1 true = Ok 0 /\ getSendTimeout 1000 0 (snd (setSendTimeout 1000 0 k 1501 true)) true = Ok 1501 /\ fst (setSendTimeout 250 0 k (-5) true) = Exn.
Proof. repeat split. Qed.
Example C98_wait_example : waitForClose 3 true [KEintr; KEintr; KN 1] [] = Ok tt /\ waitForClose 3 true [KN 1] [65] = Exn.
Proof. auto. Qed.

Print Assumptions C98_connect.
Print Assumptions C98_connect_close.
Print Assumptions C98_retry_finding.
Print Assumptions C98_bind.
Print Assumptions C98_bind_leak_finding.
Print Assumptions C98_query.
Print Assumptions C98_query_safe.
Print Assumptions C98_accept.
Print Assumptions C98_accept_leak_finding.
Print Assumptions C98_serve.
Print Assumptions C98_timeout.
Print Assumptions C98_negative_finding.
Print Assumptions C98_longest_finding.
Print Assumptions C98_linger_finding.
Print Assumptions C98_waitForClose.
Print Assumptions C98_epoll_finding.
