(** C99: resolving and printing socket addresses (include/cybozu/socket.hpp) *)
Require Import Verif.Common Verif.Text Verif.AtoiSpec Verif.FileNameModel Verif.ExceptionModel Verif.ExceptionProps Verif.AddrModel.
Import ListNotations. Local Open Scope Z_scope.

(** the address a SocketAddr stands for *)
Definition bytes_of (a : sockaddr) : list Z := firstn (Z.to_nat (sa_len a)) (sa_bytes a).
(** e is the first entry of the family *)
Definition first_of (fam : Z) (l : list ent) (e : ent) : Prop := exists a b, l = a ++ e :: b /\ e_family e = fam /\ Forall (fun x => e_family x <> fam) a.
Lemma pick_first fam l e : pick fam l = Some e <-> first_of fam l e /\ zlen (e_addr e) <= 28.
Proof.
  induction l as [|x l IH]; cbn [pick].
  - split; [discriminate|]. intros ((a & b & E & _) & _). destruct a; discriminate.
  - unfold addr_size. destruct (Z.eqb_spec (e_family x) fam) as [F|F].
    + assert (X : forall y, first_of fam (x :: l) y -> y = x). { intros y (a & b & E & _ & FA). destruct a as [|z a]; cbn in E; [congruence|]. injection E as <- _. inversion FA; congruence. }
      assert (X0 : first_of fam (x :: l) x) by (exists [], l; auto).
      destruct (Z.ltb_spec 28 (zlen (e_addr x))); split.
      * discriminate.
      * intros (H1 & H2). apply X in H1. subst. lia.
      * intros E. injection E as <-. split; [auto|lia].
      * intros (H1 & _). apply X in H1. congruence.
    + rewrite IH. split; intros ((a & b & E & G & FA) & L); (split; [|auto]).
      * exists (x :: a), b. rewrite E. auto.
      * destruct a as [|z a]; cbn in E; [congruence|]. injection E as <- E. inversion FA; subst. exists a, b. auto.
Qed.
(** the family that is asked for: IPv4 unless it is not to be had or IPv6 is forced; port: the text of the port *)
Definition family_used (gai : resolver) (host port : list Z) (force : bool) : Z := if force then AF_INET6 else match gai host port AF_INET false with Some _ => AF_INET | None => AF_INET6 end.
Lemma port_text port : 0 <= port < 65536 -> canonical_dec (snprintf 16 (printf_d port)) port /\ snprintf 16 (printf_d port) = printf_d port.
Proof.
  intros H. destruct (d_text port) as [(_ & D)|(N & _)]; [lia| |lia]. assert (L : (length (printf_d port) <= 15)%nat).
  { pose proof (ItoaProof.dec_len _ _ 5 D) as L. unfold zlen in L. change (10 ^ 5) with 100000 in L. lia. }
  assert (S : snprintf 16 (printf_d port) = printf_d port) by (unfold snprintf; apply firstn_all2; exact L). rewrite S. auto.
Qed.
(** set resolves the bytes of the name before a NUL and the decimal text of the port.  The object gets the first address of the family used,
    if this address is at most 28 bytes long; otherwise set throws and the object has no address *)
Theorem C99_set gai address port force : 0 <= port < 65536 -> exists service, canonical_dec service port /\
  let '(r, a, _) := set gai address port force in
  let fam := family_used gai (cstr address) service force in
  let answer := gai (cstr address) service fam (fam =? AF_INET6) in
  (r = Ok tt \/ r = Exn) /\
  (r = Ok tt <-> exists l e, answer = Some l /\ first_of fam l e /\ zlen (e_addr e) <= 28) /\
  (r = Ok tt -> exists l e, answer = Some l /\ first_of fam l e /\ sa_family a = fam /\ bytes_of a = e_addr e /\ zlen (sa_bytes a) = 28) /\
  (r = Exn -> sa_family a = 0 /\ sa_len a = 0).
Proof.
  intros HP. destruct (port_text port HP) as (D & _). exists (snprintf 16 (printf_d port)). split; [auto|]. set (service := snprintf 16 (printf_d port)) in *.
  unfold set. fold service. cbv zeta. set (host := cstr address). unfold family_used.
  assert (FIN : forall fam l evs, let '(r, a, _) := match pick fam l with Some e => (Ok tt, mk_sa fam (e_addr e ++ repeat 0 (28 - length (e_addr e))) (zlen (e_addr e)), evs ++ [Freed fam]) | None => (Exn, mk_sa 0 (repeat 0 28) 0, evs ++ [Freed fam]) end in
    (r = Ok tt \/ r = Exn) /\ (r = Ok tt <-> exists l0 e, Some l = Some l0 /\ first_of fam l0 e /\ zlen (e_addr e) <= 28) /\ (r = Ok tt -> exists l0 e, Some l = Some l0 /\ first_of fam l0 e /\ sa_family a = fam /\ bytes_of a = e_addr e /\ zlen (sa_bytes a) = 28) /\ (r = Exn -> sa_family a = 0 /\ sa_len a = 0)).
  { intros fam l evs. pose proof (pick_first fam l) as P. destruct (pick fam l) as [e|].
    - destruct (proj1 (P e) eq_refl) as (P1 & P2). split; [auto|]. split; [split; [eauto|auto]|]. split; [|discriminate]. intros _. exists l, e. split; [auto|]. split; [auto|]. split; [auto|]. unfold bytes_of. cbn [sa_len sa_bytes]. unfold zlen in *. split.
      + rewrite Nat2Z.id, firstn_app, firstn_all, Nat.sub_diag. cbn. now rewrite app_nil_r.
      + rewrite app_length, repeat_length. lia.
    - split; [auto|]. split; [|split; [discriminate|auto]]. split; [discriminate|]. intros (l0 & e & E & F & L). injection E as <-. pose proof (proj2 (P e) (conj F L)). discriminate. }
  assert (SIX : forall evs, let '(r, a, _) := match gai host service AF_INET6 true with None => (Exn, mk_sa 0 (repeat 0 28) 0, evs) | Some l => match pick AF_INET6 l with Some e => (Ok tt, mk_sa AF_INET6 (e_addr e ++ repeat 0 (28 - length (e_addr e))) (zlen (e_addr e)), (evs ++ [Got AF_INET6]) ++ [Freed AF_INET6]) | None => (Exn, mk_sa 0 (repeat 0 28) 0, (evs ++ [Got AF_INET6]) ++ [Freed AF_INET6]) end end in
    (r = Ok tt \/ r = Exn) /\ (r = Ok tt <-> exists l0 e, gai host service AF_INET6 true = Some l0 /\ first_of AF_INET6 l0 e /\ zlen (e_addr e) <= 28) /\ (r = Ok tt -> exists l0 e, gai host service AF_INET6 true = Some l0 /\ first_of AF_INET6 l0 e /\ sa_family a = AF_INET6 /\ bytes_of a = e_addr e /\ zlen (sa_bytes a) = 28) /\ (r = Exn -> sa_family a = 0 /\ sa_len a = 0)).
  { intros evs. destruct (gai host service AF_INET6 true) as [l|]; [apply FIN|]. split; [auto|]. split; [|split; [discriminate|auto]]. split; [discriminate|]. intros (l0 & e & E & _). discriminate. }
  destruct force; [destruct (gai host service AF_INET false); apply SIX|].
  destruct (gai host service AF_INET false) as [l|] eqn:G; [|apply SIX]. change (AF_INET =? AF_INET6) with false. rewrite G. apply FIN.
Qed.
(** with a resolver that puts the port it is given into its addresses, getPort is the port given to set *)
Theorem C99_port gai address port force : 0 <= port < 65536 -> (forall host service p fam mapped l e, canonical_dec service p -> gai host service fam mapped = Some l -> In e l -> e_family e = fam -> exists x y r, e_addr e = x :: y :: p / 256 :: p mod 256 :: r) ->
  let '(r, a, _) := set gai address port force in r = Ok tt -> getPort a = Ok port.
Proof.
  intros HP G. destruct (C99_set gai address port force HP) as (service & D & C). destruct (set gai address port force) as [[r a] evs]. destruct C as (_ & _ & C & _). intros R. destruct (C R) as (l & e & A & (u & v & LE & F & _) & SF & B & L).
  assert (I : In e l) by (rewrite LE; apply in_or_app; right; left; auto). destruct (G _ _ _ _ _ _ _ D A I F) as (x & y & rest & E). unfold bytes_of in B. rewrite E in B.
  assert (N : forall i, (i < 4)%nat -> nth_error (sa_bytes a) i = nth_error (x :: y :: port / 256 :: port mod 256 :: rest) i).
  { intros i Hi. rewrite <- B. rewrite <- (firstn_skipn (Z.to_nat (sa_len a)) (sa_bytes a)) at 1. rewrite nth_error_app1; [reflexivity|]. rewrite B. cbn [length]. lia. }
  unfold getPort, rd. change (Z.to_nat 2) with 2%nat. change (Z.to_nat 3) with 3%nat. rewrite !N by lia. cbn [Z.ltb Z.compare nth_error bind]. rewrite SF. unfold family_used.
  assert (X : forall f, (f =? AF_INET) || (f =? AF_INET6) = true -> (if (f =? AF_INET) || (f =? AF_INET6) then Ok (port / 256 * 256 + port mod 256) else Exn) = Ok port) by (intros f ->; f_equal; lia).
  apply X. destruct force; [reflexivity|]. destruct (gai _ _ AF_INET false); reflexivity.
Qed.
(** unless IPv6 is forced, what the resolver allocated is freed exactly once *)
Theorem C99_freed gai address port : let '(_, _, evs) := set gai address port false in evs = [] \/ exists fam, evs = [Got fam; Freed fam].
Proof.
  unfold set. cbv zeta. destruct (gai _ _ AF_INET false) as [l|]; [destruct (pick AF_INET l); right; eexists; reflexivity|]. destruct (gai _ _ AF_INET6 true) as [l|]; [|auto]. destruct (pick AF_INET6 l); right; eexists; reflexivity.
Qed.
(** ** Finding: with IPv6 forced, the IPv4 list of a name that has one is never freed *)
Theorem C99_leak_finding gai address port l : gai (cstr address) (snprintf 16 (printf_d port)) AF_INET false = Some l -> let '(_, _, evs) := set gai address port true in In (Got AF_INET) evs /\ ~ In (Freed AF_INET) evs.
Proof.
  intros E. unfold set. rewrite E. cbv zeta. destruct (gai _ _ AF_INET6 true) as [l2|]; [destruct (pick AF_INET6 l2)|]; cbn; (split; [auto|]); intros X; repeat (destruct X as [X|X]; [discriminate|]); exact X.
Qed.
(** ** Finding: a name is resolved up to its first NUL *)
Theorem C99_nul_finding gai a b port force : set gai (a ++ 0 :: b) port force = set gai a port force.
Proof. unfold set. assert (C : cstr (a ++ 0 :: b) = cstr a) by (induction a as [|x a IH]; [reflexivity|cbn; destruct (x =? 0); [reflexivity|now rewrite IH]]). now rewrite C. Qed.

(** ** toStr *)
(** an IPv4 or IPv6 address as set and accept make them *)
Definition inet_addr (a : sockaddr) : Prop := (sa_family a = AF_INET \/ sa_family a = AF_INET6) /\ zlen (sa_bytes a) = 28 /\ Forall (fun b => 0 <= b < 256) (sa_bytes a).
Definition host_of (a : sockaddr) : list Z := if sa_family a =? AF_INET then firstn 4 (skipn 4 (sa_bytes a)) else firstn 16 (skipn 8 (sa_bytes a)).
(** the IPv6 texts of inet_ntop: short enough, different for different addresses, without a closing bracket *)
Definition bytes16 (b : list Z) : Prop := length b = 16%nat /\ Forall (fun x => 0 <= x < 256) b.
Definition good_ntop6 (f : list Z -> list Z) : Prop := (forall b, bytes16 b -> zlen (f b) < 46 /\ ~ In 93 (f b)) /\ forall b b', bytes16 b -> bytes16 b' -> f b = f b' -> b = b'.
Lemma host16 a : inet_addr a -> sa_family a = AF_INET6 -> bytes16 (host_of a).
Proof.
  intros (_ & L & B) F. unfold host_of. rewrite F. cbn [AF_INET AF_INET6 Z.eqb Pos.eqb]. split; [rewrite firstn_length, skipn_length; unfold zlen in L; lia|].
  apply Forall_forall. intros x I. apply (proj1 (Forall_forall _ _) B). rewrite <- (firstn_skipn 8 (sa_bytes a)). apply in_or_app. right. rewrite <- (firstn_skipn 16 (skipn 8 (sa_bytes a))). apply in_or_app. left. auto.
Qed.
Lemma dec_text x : 0 <= x < 65536 -> canonical_dec (printf_d x) x.
Proof. intros H. destruct (d_text x) as [(_ & D)|(N & _)]; auto; lia. Qed.
Lemma split_at d1 d2 c1 c2 r1 r2 : Forall is_digit d1 -> Forall is_digit d2 -> ~ is_digit c1 -> ~ is_digit c2 -> d1 ++ c1 :: r1 = d2 ++ c2 :: r2 -> d1 = d2 /\ c1 = c2 /\ r1 = r2.
Proof.
  intros F1. revert d2. induction F1 as [|x d1 X F1 IH]; intros d2 F2 N1 N2 E; destruct F2 as [|y d2 Y F2]; cbn in E.
  - injection E as <- <-. auto.
  - injection E as -> _. tauto.
  - injection E as <- _. tauto.
  - injection E as <- E. destruct (IH d2 F2 N1 N2 E) as (-> & -> & ->). auto.
Qed.
Lemma dec_inj t x y : canonical_dec t x -> canonical_dec t y -> x = y.
Proof. intros (_ & _ & <- & _) (_ & _ & <- & _). reflexivity. Qed.
Theorem C99_toStr ntop6 a : good_ntop6 ntop6 -> inet_addr a -> exists p host port, getPort a = Ok p /\ canonical_dec port p /\
  toStr ntop6 a = Ok (if sa_family a =? AF_INET then host ++ str ":" ++ port else str "[" ++ host ++ str "]:" ++ port) /\
  (sa_family a = AF_INET -> exists w x y z dw dx dy dz, host_of a = [w; x; y; z] /\ canonical_dec dw w /\ canonical_dec dx x /\ canonical_dec dy y /\ canonical_dec dz z /\ host = dw ++ str "." ++ dx ++ str "." ++ dy ++ str "." ++ dz) /\
  (sa_family a = AF_INET6 -> host = ntop6 (host_of a)).
Proof.
  intros (G1 & _) IA. pose proof (host16 a IA) as H16. destruct IA as (F & L & B). unfold host_of in H16. destruct (sa_bytes a) as [|b0 [|b1 [|b2 [|b3 [|w [|x [|y [|z r]]]]]]]] eqn:SB; try (cbn in L; unfold zlen in L; cbn in L; lia).
  repeat match goal with H : Forall _ (_ :: _) |- _ => inversion H; subst; clear H end.
  assert (P : getPort a = Ok (b2 * 256 + b3)). { unfold getPort, rd. rewrite SB. change (Z.to_nat 2) with 2%nat. change (Z.to_nat 3) with 3%nat. cbn [Z.ltb Z.compare nth_error bind]. destruct F as [-> | ->]; reflexivity. }
  assert (PT : canonical_dec (printf_d (b2 * 256 + b3)) (b2 * 256 + b3)) by (apply dec_text; lia).
  unfold toStr, host_of. rewrite P, SB. destruct F as [F|F]; rewrite F; cbn [AF_INET AF_INET6 Z.eqb Pos.eqb orb].
  - change (firstn 4 (skipn 4 (b0 :: b1 :: b2 :: b3 :: w :: x :: y :: z :: r))) with [w; x; y; z]. cbn [dotted].
    pose proof (dec_text w ltac:(lia)) as Dw. pose proof (dec_text x ltac:(lia)) as Dx. pose proof (dec_text y ltac:(lia)) as Dy. pose proof (dec_text z ltac:(lia)) as Dz.
    assert (LB : forall v, 0 <= v < 256 -> canonical_dec (printf_d v) v -> zlen (printf_d v) <= 3) by (intros v V D; apply (ItoaProof.dec_len _ _ _ D); [change (10 ^ 3) with 1000|]; lia).
    pose proof (LB w ltac:(lia) Dw). pose proof (LB x ltac:(lia) Dx). pose proof (LB y ltac:(lia) Dy). pose proof (LB z ltac:(lia) Dz).
    destruct (Z.leb_spec 46 (zlen (printf_d w ++ 46 :: printf_d x ++ 46 :: printf_d y ++ 46 :: printf_d z))) as [X|X]; [exfalso; unfold zlen in *; rewrite app_length in X; cbn [length] in X; rewrite app_length in X; cbn [length] in X; rewrite app_length in X; cbn [length] in X; lia|].
    cbn [bind]. do 3 eexists. split; [reflexivity|]. split; [exact PT|]. split; [reflexivity|]. split; [|discriminate]. intros _. exists w, x, y, z, (printf_d w), (printf_d x), (printf_d y), (printf_d z). repeat split; auto; try apply Dw; try apply Dx; try apply Dy; try apply Dz.
  - rewrite F in H16. specialize (H16 eq_refl). cbn [AF_INET AF_INET6 Z.eqb Pos.eqb] in H16. set (h := firstn 16 _) in *. destruct (G1 h H16) as (G2 & _). destruct (Z.leb_spec 46 (zlen (ntop6 h))); [lia|]. cbn [bind]. do 3 eexists. split; [reflexivity|]. split; [exact PT|]. split; [reflexivity|]. split; [discriminate|]. auto.
Qed.
(** the text tells the family, the host and the port *)
Theorem C99_toStr_inj ntop6 a b t : good_ntop6 ntop6 -> inet_addr a -> inet_addr b -> toStr ntop6 a = Ok t -> toStr ntop6 b = Ok t ->
  sa_family a = sa_family b /\ host_of a = host_of b /\ getPort a = getPort b.
Proof.
  intros G A B TA TB. destruct (C99_toStr ntop6 a G A) as (pa & ha & ta & PA & DA & SA & A4 & A6). destruct (C99_toStr ntop6 b G B) as (pb & hb & tb & PB & DB & SB & B4 & B6). rewrite TA in SA. rewrite TB in SB. injection SA as SA. injection SB as SB. rewrite SA in SB. clear TA TB SA t.
  assert (ND : forall c, c = 46 \/ c = 58 \/ c = 93 \/ c = 91 -> ~ is_digit c) by (unfold is_digit; intros; lia).
  pose proof (host16 a A) as HA16. pose proof (host16 b B) as HB16. destruct A as (FA & LA & _), B as (FB & LB & _).
  assert (DIG : forall t x, canonical_dec t x -> Forall is_digit t /\ t <> []) by (intros t x (? & ? & _); auto).
  assert (X4 : forall dw h (r : list Z), canonical_dec dw h -> forall u, dw ++ r <> 91 :: u).
  { intros dw h r D u E. destruct (DIG _ _ D) as (F & N). destruct dw as [|c dw]; [congruence|]. inversion F; subst. injection E as ->. unfold is_digit in *. lia. }
  destruct FA as [FA|FA], FB as [FB|FB]; rewrite FA, FB in SB; cbn [AF_INET AF_INET6 Z.eqb Pos.eqb] in SB.
  - destruct (A4 FA) as (w & x & y & z & dw & dx & dy & dz & HA & Dw & Dx & Dy & Dz & ->). destruct (B4 FB) as (w' & x' & y' & z' & dw' & dx' & dy' & dz' & HB & Dw' & Dx' & Dy' & Dz' & ->).
    rewrite <- !app_assoc in SB. cbn [str app] in SB. cbn in SB.
    repeat match goal with H : canonical_dec ?d ?v |- _ => lazymatch goal with _ : Forall is_digit d |- _ => fail | _ => destruct (DIG _ _ H) end end.
    apply split_at in SB as (-> & _ & SB); auto 8. rewrite <- ?app_assoc in SB. cbn in SB. apply split_at in SB as (-> & _ & SB); auto 8. rewrite <- ?app_assoc in SB. cbn in SB. apply split_at in SB as (-> & _ & SB); auto 8. apply split_at in SB as (-> & _ & ->); auto 8.
    split; [congruence|]. split; [rewrite HA, HB; repeat f_equal; eapply dec_inj; eauto|]. rewrite PA, PB. f_equal. eapply dec_inj; eauto.
  - exfalso. destruct (A4 FA) as (w & x & y & z & dw & dx & dy & dz & HA & Dw & _ & _ & _ & ->). rewrite <- !app_assoc in SB. eapply X4; [exact Dw|exact SB].
  - exfalso. destruct (B4 FB) as (w & x & y & z & dw & dx & dy & dz & HB & Dw & _ & _ & _ & ->). rewrite <- !app_assoc in SB. eapply X4; [exact Dw|symmetry; exact SB].
  - rewrite (A6 FA), (B6 FB) in SB. destruct G as (G1 & G2). set (h := host_of a) in *. set (h' := host_of b) in *. cbn in SB. injection SB as SB.
    assert (S93 : forall l l' r r', ~ In 93 l -> ~ In 93 l' -> l ++ 93 :: r = l' ++ 93 :: r' -> l = l' /\ r = r').
    { clear. induction l as [|x l IH]; intros [|y l'] r r' N N' E; cbn in E.
      - injection E as <-. auto.
      - injection E as <- _. exfalso. apply N'. left. auto.
      - injection E as -> _. exfalso. apply N. left. auto.
      - injection E as <- E. destruct (IH l' r r') as (-> & ->); auto; intros I; [apply N|apply N']; right; auto. }
    apply S93 in SB as (SB1 & SB2); [|apply G1; auto|apply G1; auto]. injection SB2 as ->.
    split; [congruence|]. split; [apply G2; auto|]. rewrite PA, PB. f_equal. eapply dec_inj; eauto.
Qed.

(** ** Examples *)
(** two addresses for a name, and a text for IPv6 *)
Definition ex_gai : resolver := fun host service fam mapped =>
  let p := dec_value service in
  if list_eq_dec Z.eq_dec host (str "v6") then (if fam =? AF_INET6 then Some [mk_ent 10 ([10; 0; p / 256; p mod 256] ++ repeat 1 24)] else None)
  else Some [mk_ent (1 + fam) []; mk_ent fam ([fam; 0; p / 256; p mod 256] ++ repeat 9 (if fam =? AF_INET then 12 else 24))].
Definition ex_ntop6 (b : list Z) : list Z := firstn 32 (flat_map (fun x => [97 + x / 16; 97 + x mod 16]) b).
Example C99_resolver_example : forall host service p fam mapped l e, canonical_dec service p -> ex_gai host service fam mapped = Some l -> In e l -> e_family e = fam -> exists x y r, e_addr e = x :: y :: p / 256 :: p mod 256 :: r.
Proof.
  intros host service p fam mapped l e (_ & _ & <- & _) E I F. unfold ex_gai in E. fold (dec_value service) in *. destruct (list_eq_dec Z.eq_dec host (str "v6")).
  - destruct (fam =? AF_INET6); [|discriminate]. injection E as <-. destruct I as [<-|[]]. cbn [e_addr app]. eauto.
  - apply (f_equal (fun o => match o with Some x => x | None => [] end)) in E. cbv beta iota in E. subst l. destruct I as [<-|[<-|[]]].
    + exfalso. unfold e_family in F. clear -F. lia.
    + cbn [e_addr app]. eauto.
Qed.

Example C99_ntop6_example : good_ntop6 ex_ntop6.
Proof.
  assert (L : forall b, length (flat_map (fun x => [97 + x / 16; 97 + x mod 16]) b) = (2 * length b)%nat) by (induction b as [|x b IH]; [reflexivity|]; cbn [flat_map app length]; rewrite IH; lia).
  assert (E : forall b, bytes16 b -> ex_ntop6 b = flat_map (fun x => [97 + x / 16; 97 + x mod 16]) b) by (intros b (B & _); unfold ex_ntop6; apply firstn_all2; rewrite L, B; lia).
  split.
  - intros b B. rewrite (E b B). split; [unfold zlen; rewrite L; destruct B as (-> & _); lia|]. intros I. apply in_flat_map in I as (x & X & [I|[I|[]]]); pose proof (proj1 (Forall_forall _ _) (proj2 B) x X); cbn beta in *; lia.
  - intros b b' B B'. rewrite (E b B), (E b' B'). assert (P : forall (u v u' v' : Z) t t', u :: v :: t = u' :: v' :: t' -> u = u' /\ v = v' /\ t = t') by (intros u v u' v' t t' H; injection H; auto).
    clear -P. revert b'. induction b as [|x b IH]; intros [|y b'] H; cbn [flat_map app] in H; try discriminate; [reflexivity|]. apply P in H as (H1 & H2 & H3). f_equal; [lia|auto].
Qed.
Example C99_set_example : set ex_gai (str "host") 8080 false = (Ok tt, mk_sa 2 ([2; 0; 31; 144] ++ repeat 9 12 ++ repeat 0 12) 16, [Got 2; Freed 2]) /\
  set ex_gai (str "v6") 80 false = (Ok tt, mk_sa 10 ([10; 0; 0; 80] ++ repeat 1 24) 28, [Got 10; Freed 10]) /\
  toStr ex_ntop6 (mk_sa 2 ([2; 0; 31; 144; 192; 168; 0; 17] ++ repeat 0 20) 16) = Ok (str "192.168.0.17:8080") /\
  toStr ex_ntop6 (mk_sa 10 ([10; 0; 0; 80] ++ repeat 0 24) 28) = Ok (str "[aaaaaaaaaaaaaaaaaaaaaaaaaaaaaaaa]:80").
Proof. repeat split. Qed.

Print Assumptions C99_set.
Print Assumptions C99_port.
Print Assumptions C99_freed.
Print Assumptions C99_leak_finding.
Print Assumptions C99_nul_finding.
Print Assumptions C99_toStr.
Print Assumptions C99_toStr_inj.
