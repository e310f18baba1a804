(** C57: file names (include/cybozu/file.hpp), C58: address comparison (include/cybozu/socket.hpp) *)
Require Import Verif.Common Verif.FileNameModel.

(** ** C57 *)
Definition dot : Z := 46.
Definition ends_with (l e : list Z) : Prop := exists p, l = p ++ e.

Lemma memeq_spec : forall n a b i j, 0 <= i -> 0 <= j -> i + Z.of_nat n <= zlen a -> j + Z.of_nat n <= zlen b ->
  exists r, memeq a b i j n = Ok r /\ (r = true <-> firstn n (skipn (Z.to_nat i) a) = firstn n (skipn (Z.to_nat j) b)).
Proof.
  intros n. induction n as [|n IH]; intros a b i j Hi Hj Ha Hb; cbn [memeq]; [exists true; split; [auto|cbn; tauto]|].
  assert (Ra: exists x, nth_error a (Z.to_nat i) = Some x). { destruct (nth_error a (Z.to_nat i)) eqn:E; [eauto|]. apply nth_error_None in E. unfold zlen in Ha. lia. }
  assert (Rb: exists x, nth_error b (Z.to_nat j) = Some x). { destruct (nth_error b (Z.to_nat j)) eqn:E; [eauto|]. apply nth_error_None in E. unfold zlen in Hb. lia. }
  destruct Ra as [x Ex]. destruct Rb as [y Ey].
  assert (Rx: rd a i = Ok x) by (unfold rd; destruct (Z.ltb_spec i 0); [lia|]; rewrite Ex; auto).
  assert (Ry: rd b j = Ok y) by (unfold rd; destruct (Z.ltb_spec j 0); [lia|]; rewrite Ey; auto).
  rewrite Rx, Ry. cbn [bind]. destruct (IH a b (i + 1) (j + 1)) as (r & E & Q); try lia. rewrite E. cbn [bind].
  exists ((x =? y) && r). split; [auto|].
  assert (Sa: skipn (Z.to_nat i) a = x :: skipn (Z.to_nat (i + 1)) a).
  { replace (Z.to_nat (i + 1)) with (S (Z.to_nat i)) by lia. clear - Ex. revert Ex. generalize (Z.to_nat i) as k. intros k. revert a. induction k as [|k IHk]; intros [|z a] E; cbn in *; try discriminate; [congruence|]. rewrite (IHk a E). reflexivity. }
  assert (Sb: skipn (Z.to_nat j) b = y :: skipn (Z.to_nat (j + 1)) b).
  { replace (Z.to_nat (j + 1)) with (S (Z.to_nat j)) by lia. clear - Ey. revert Ey. generalize (Z.to_nat j) as k. intros k. revert b. induction k as [|k IHk]; intros [|z b] E; cbn in *; try discriminate; [congruence|]. rewrite (IHk b E). reflexivity. }
  rewrite Sa, Sb. cbn [firstn]. rewrite andb_true_iff, Q, Z.eqb_eq. split; [intros [-> ->]; auto|intros F; injection F; auto].
Qed.

Lemma app_eq_len : forall (a b c d : list Z), length a = length c -> a ++ b = c ++ d -> a = c /\ b = d.
Proof. intros a. induction a as [|x a IH]; intros b [|y c] d L E; cbn in *; try discriminate; auto. injection E as -> E. destruct (IH b c d ltac:(lia) E) as [-> ->]. auto. Qed.
Theorem C57_extension : forall name ext, exists b, HasExtension name ext = Ok b /\ (b = true <-> ext = [] \/ ends_with name (dot :: ext)).
Proof.
  intros name ext. unfold HasExtension. destruct (Z.eqb_spec (zlen ext) 0) as [Z0|Z0].
  - exists true. split; [auto|]. split; auto. intros _. left. destruct ext; auto. rewrite zlen_cons in Z0. pose proof (zlen_nonneg ext). lia.
  - pose proof (zlen_nonneg ext). destruct (Z.ltb_spec (zlen name) (zlen ext + 1)) as [L|L].
    + exists false. split; [auto|]. split; [discriminate|]. intros [->|[p ->]]; [rewrite zlen_nil in Z0; lia|]. rewrite zlen_app, zlen_cons in L. pose proof (zlen_nonneg p). lia.
    + set (k := zlen name - zlen ext - 1). assert (Hk: 0 <= k < zlen name) by (unfold k; lia).
      destruct (nth_error name (Z.to_nat k)) as [c|] eqn:Ec; [|apply nth_error_None in Ec; unfold zlen in *; lia].
      assert (Rc: rd name k = Ok c) by (unfold rd; destruct (Z.ltb_spec k 0); [lia|]; rewrite Ec; auto). rewrite Rc. cbn [bind].
      assert (Sp: name = firstn (Z.to_nat k) name ++ c :: skipn (S (Z.to_nat k)) name).
      { clear - Ec. clearbody k. revert Ec. generalize (Z.to_nat k) as j. intros j. revert name. induction j as [|j IHk]; intros [|z a] E; cbn in *; try discriminate; [congruence|]. f_equal. apply IHk. auto. }
      assert (Len: length (skipn (S (Z.to_nat k)) name) = length ext) by (rewrite skipn_length; unfold k, zlen in *; lia).
      assert (Uniq: forall p, name = p ++ dot :: ext -> c = dot /\ skipn (S (Z.to_nat k)) name = ext).
      { intros p E. assert (length p = Z.to_nat k) by (apply (f_equal (@length Z)) in E; rewrite app_length in E; cbn [length] in E; unfold k, zlen in *; lia).
        rewrite Sp in E. assert (length (firstn (Z.to_nat k) name) = length p) by (rewrite firstn_length; unfold zlen in *; lia).
        assert (firstn (Z.to_nat k) name = p /\ c :: skipn (S (Z.to_nat k)) name = dot :: ext) as [_ Q].
        { apply app_eq_len; auto. }
        injection Q. auto. }
      destruct (Z.eqb_spec c 46) as [->|Nc].
      * destruct (memeq_spec (length ext) name ext (k + 1) 0) as (r & E & Q); try (unfold k, zlen in *; lia). rewrite E. exists r. split; [auto|]. rewrite Q.
        replace (Z.to_nat (k + 1)) with (S (Z.to_nat k)) by lia. change (skipn (Z.to_nat 0) ext) with ext. rewrite firstn_all. rewrite <- Len at 1. rewrite firstn_all. clear E Q. split.
        -- intros F. right. exists (firstn (Z.to_nat k) name). rewrite F in Sp. exact Sp.
        -- intros [->|[p F]]; [rewrite zlen_nil in Z0; lia|]. apply (Uniq p F).
      * exists false. split; [auto|]. split; [discriminate|]. intros [->|[p F]]; [rewrite zlen_nil in Z0; lia|]. destruct (Uniq p F) as [-> _]. exfalso. apply Nc. reflexivity.
Qed.
Example C57_extension_ex : HasExtension [97; 46; 99; 112; 112] [99; 112; 112] = Ok true /\ HasExtension [97; 46; 99; 112; 112] [112; 112] = Ok false /\ HasExtension [112; 112] [112; 112] = Ok false.
Proof. split; [|split]; reflexivity. Qed.

Lemma find_last_spec : forall c l i, match find_last c l i with
  | Some p => exists a b, l = a ++ c :: b /\ p = (i + length a)%nat /\ ~ In c b
  | None => ~ In c l end.
Proof.
  intros c l. induction l as [|x l IH]; intros i; cbn [find_last]; [intros []|]. specialize (IH (S i)). destruct (find_last c l (S i)) as [p|].
  - destruct IH as (a & b & -> & -> & N). exists (x :: a), b. split; [reflexivity|]. split; [simpl; lia|auto].
  - destruct (Z.eqb_spec x c) as [->|D]; [exists [], l; split; [reflexivity|]; split; [simpl; lia|auto]|]. intros [Q|Q]; auto.
Qed.
(** the split at the last dot: rebuilt exactly, the suffix has no dot; without a dot the base is the name and the suffix is empty *)
Theorem C57_base : forall name base suffix, GetBaseName name = (base, suffix) ->
  (In dot name -> name = base ++ dot :: suffix /\ ~ In dot suffix) /\ (~ In dot name -> base = name /\ suffix = []).
Proof.
  intros name base suffix. unfold GetBaseName. pose proof (find_last_spec 46 name 0) as F. destruct (find_last 46 name 0) as [p|].
  - destruct F as (a & b & -> & -> & N). cbn [Nat.add]. rewrite firstn_app_exact. intros E.
    assert (Es: skipn (S (length a)) (a ++ 46 :: b) = b). { replace (S (length a)) with (length (a ++ [46])) by (rewrite app_length; simpl; lia). change (46 :: b) with ([46] ++ b). rewrite app_assoc. apply skipn_app_exact. }
    rewrite Es in E. injection E as <- <-. split; [auto|]. intros Q. exfalso. apply Q. apply in_or_app. right. left. auto.
  - intros E. injection E as <- <-. split; [tauto|auto].
Qed.
(** ... and nothing else is such a split *)
Theorem C57_base_unique : forall base suffix, ~ In dot suffix -> GetBaseName (base ++ dot :: suffix) = (base, suffix).
Proof.
  intros base suffix N. destruct (GetBaseName (base ++ dot :: suffix)) as [b s] eqn:E. destruct (C57_base _ _ _ E) as [A _].
  destruct A as [A1 A2]; [apply in_or_app; right; left; auto|]. revert A1 A2. clear E. revert b. induction base as [|x base IH]; intros [|y b] A1 A2; cbn in A1.
  - injection A1 as ->. auto.
  - injection A1 as <- A1. exfalso. apply N. rewrite A1. apply in_or_app. right. left. auto.
  - injection A1 as -> A1. exfalso. apply A2. rewrite <- A1. apply in_or_app. right. left. auto.
  - injection A1 as <- A1. specialize (IH b A1 A2). congruence.
Qed.
(** base names and extensions agree: HasExtension(name, suffix) holds for the suffix of the name *)
Theorem C57_agree : forall name base suffix, GetBaseName name = (base, suffix) -> HasExtension name suffix = Ok true.
Proof.
  intros name base suffix E. destruct (C57_extension name suffix) as (b & -> & B). f_equal. apply B. destruct (C57_base _ _ _ E) as [A1 A2].
  destruct (in_dec Z.eq_dec dot name) as [I|N]; [right; exists base; apply A1; auto|left; apply A2; auto].
Qed.
Theorem C57_slash : forall s, length (ReplaceBackSlash s) = length s /\ ~ In 92 (ReplaceBackSlash s) /\
  (forall i c, nth_error s i = Some c -> nth_error (ReplaceBackSlash s) i = Some (if c =? 92 then 47 else c)) /\
  ReplaceBackSlash (ReplaceBackSlash s) = ReplaceBackSlash s.
Proof.
  intros s. unfold ReplaceBackSlash. split; [apply map_length|]. split; [|split].
  - intros I. apply in_map_iff in I. destruct I as (x & E & _). destruct (Z.eqb_spec x 92); lia.
  - intros i c E. apply (map_nth_error (fun c => if c =? 92 then 47 else c)) in E. exact E.
  - rewrite map_map. apply map_ext. intros c. destruct (Z.eqb_spec c 92); [reflexivity|]. destruct (Z.eqb_spec c 92); [lia|auto].
Qed.
Lemma listZ_eqb_spec : forall a b, listZ_eqb a b = true <-> a = b.
Proof.
  intros a. induction a as [|x a IH]; intros [|y b]; cbn [listZ_eqb]; split; try discriminate; auto.
  - rewrite andb_true_iff, Z.eqb_eq, IH. intros [-> ->]; auto.
  - intros E. injection E as -> ->. rewrite andb_true_iff, Z.eqb_eq, IH. auto.
Qed.
(** the path ends with its last '/', path + file name is the link target, and the base name drops exactly ".exe" *)
Theorem C57_exe : forall dir file base0, ~ In 47 file ->
  fst (GetExePath (dir ++ 47 :: file) base0) = dir ++ [47] /\
  (forall b, file = b ++ dot :: exeName -> snd (GetExePath (dir ++ 47 :: file) base0) = b) /\
  ((forall b, file <> b ++ dot :: exeName) -> snd (GetExePath (dir ++ 47 :: file) base0) = file).
Proof.
  intros dir file base0 N. unfold GetExePath. pose proof (find_last_spec 47 (dir ++ 47 :: file) 0) as F. destruct (find_last 47 (dir ++ 47 :: file) 0) as [p|].
  2:{ exfalso. apply F. apply in_or_app. right. left. auto. }
  destruct F as (a & b & E & -> & Nb).
  assert (a = dir /\ b = file) as [-> ->].
  { revert a E. clear - N Nb. induction dir as [|x d IH]; intros [|y a] E; cbn in E.
    - injection E as ->. auto.
    - injection E as <- E. exfalso. apply N. rewrite E. apply in_or_app. right. left. auto.
    - injection E as -> E. exfalso. apply Nb. rewrite <- E. apply in_or_app. right. left. auto.
    - injection E as <- E. destruct (IH a E) as [-> ->]. auto. }
  cbn [Nat.add]. change (dir ++ 47 :: file) with (dir ++ [47] ++ file). rewrite app_assoc.
  replace (S (length dir)) with (length (dir ++ [47])) by (rewrite app_length; simpl; lia). rewrite skipn_app_exact, firstn_app_exact.
  destruct (GetBaseName file) as [bs sf] eqn:G. cbn [fst snd]. split; [auto|]. split.
  - intros b' ->. rewrite C57_base_unique in G by (intros I; cbn in I; unfold dot in I; repeat (destruct I as [I|I]; [lia|]); destruct I). injection G as <- <-. reflexivity.
  - intros H. destruct (listZ_eqb sf exeName) eqn:Q; auto. apply listZ_eqb_spec in Q. subst sf. destruct (C57_base _ _ _ G) as [A1 A2]. destruct (in_dec Z.eq_dec dot file) as [I|NI].
    + exfalso. apply (H bs). apply A1. auto.
    + destruct (A2 NI). discriminate.
Qed.
Example C57_exe_ex : GetExePath [47; 98; 47; 120; 46; 101; 120; 101] [] = ([47; 98; 47], [120]).
Proof. reflexivity. Qed.
(** GetFileList selects exactly the entries with the extension, except "." and "..", in directory order *)
Theorem C57_list : forall entries ext, exists l, GetFileList entries ext = Ok l /\
  forall P, (forall e, P e = true <-> e <> [dot] /\ e <> [dot; dot] /\ (ext = [] \/ ends_with e (dot :: ext))) -> l = filter P entries.
Proof.
  intros entries ext. induction entries as [|e r (l & E & H)]; cbn [GetFileList]; [exists []; split; [auto|intros; reflexivity]|].
  destruct (listZ_eqb e [46] || listZ_eqb e [46; 46]) eqn:D.
  - rewrite E. exists l. split; [auto|]. intros P HP. cbn [filter]. destruct (P e) eqn:Pe; [|apply H; auto]. exfalso. apply HP in Pe. destruct Pe as (A & B & _).
    apply orb_true_iff in D. destruct D as [D|D]; apply listZ_eqb_spec in D; auto.
  - destruct (C57_extension e ext) as (b & Eb & B). rewrite Eb, E. cbn [bind]. eexists. split; [reflexivity|]. intros P HP. cbn [filter]. rewrite (H P HP) by auto.
    apply orb_false_iff in D. destruct D as [D1 D2].
    assert (e <> [dot] /\ e <> [dot; dot]) as [X1 X2]. { split; intros ->; discriminate. }
    replace (P e) with b; [reflexivity|]. destruct (P e) eqn:Pe; [apply B; apply HP in Pe; tauto|]. destruct b; auto. exfalso.
    assert (P e = true) by (apply HP; split; [auto|]; split; [auto|]; apply B; auto). congruence.
Qed.

(** ** C58 *)
(** the address as 16 bytes: an IPv4 address in its IPv4-mapped form ::ffff:a.b.c.d *)
Definition canon (a : sockaddr) : list Z :=
  if sa_family a =? AF_INET then [0; 0; 0; 0; 0; 0; 0; 0; 0; 0; 255; 255] ++ firstn 4 (skipn 4 (sa_bytes a)) else firstn 16 (skipn 8 (sa_bytes a)).
Definition inet (a : sockaddr) : Prop := (sa_family a = AF_INET \/ sa_family a = AF_INET6) /\ length (sa_bytes a) = 28%nat.

Lemma firstn_split : forall (l : list Z) n m, firstn (n + m) l = firstn n l ++ firstn m (skipn n l).
Proof. intros l n. revert l. induction n as [|n IH]; intros l m; [reflexivity|]. destruct l; [cbn; rewrite firstn_nil; reflexivity|]. cbn. f_equal. apply IH. Qed.
Lemma mapped_spec : forall v4 v6, length v4 = 28%nat -> length v6 = 28%nat ->
  exists r, (let! h := memeq v6 header 8 0 12 in if h then memeq v6 v4 20 4 4 else Ok false) = Ok r /\
  (r = true <-> header ++ firstn 4 (skipn 4 v4) = firstn 16 (skipn 8 v6)).
Proof.
  intros v4 v6 L4 L6. destruct (memeq_spec 12 v6 header 8 0) as (h & Eh & H); try (unfold zlen; cbn; lia). rewrite Eh. cbn [bind].
  destruct (memeq_spec 4 v6 v4 20 4) as (g & Eg & G); try (unfold zlen; lia). change (Z.to_nat 8) with 8%nat in *. change (Z.to_nat 20) with 20%nat in *. change (Z.to_nat 4) with 4%nat in *. change (Z.to_nat 0) with 0%nat in *.
  change (firstn 12 (skipn 0 header)) with header in H.
  assert (S16: firstn 16 (skipn 8 v6) = firstn 12 (skipn 8 v6) ++ firstn 4 (skipn 20 v6)). { change 16%nat with (12 + 4)%nat. rewrite firstn_split, skipn_skipn. reflexivity. }
  rewrite S16. destruct h.
  - exists g. split; [auto|]. rewrite G. destruct H as [H _]. rewrite (H eq_refl). split; [intros ->; auto|]. intros E. apply app_inv_head in E. auto.
  - exists false. split; [auto|]. split; [discriminate|]. intros E. apply H. apply app_eq_len in E; [destruct E; auto|]. rewrite firstn_length, skipn_length, L6. reflexivity.
Qed.
Theorem C58_same : forall a b, length (sa_bytes a) = 28%nat -> length (sa_bytes b) = 28%nat -> exists r, hasSameAddr a b = Ok r /\
  (r = true <-> inet a /\ inet b /\ canon a = canon b).
Proof.
  intros a b La Lb. unfold hasSameAddr, inet, canon. cbv zeta.
  destruct (Z.eqb_spec (sa_family a) AF_INET) as [Fa|Fa].
  - destruct (Z.eqb_spec (sa_family b) AF_INET) as [Fb|Fb].
    + destruct (memeq_spec 4 (sa_bytes a) (sa_bytes b) 4 4) as (r & E & R); try (unfold zlen; lia). exists r. split; [auto|]. rewrite R. split; [|intros (_ & _ & Q); apply app_inv_head in Q; auto].
      intros Q. split; [auto|]. split; [auto|]. f_equal. exact Q.
    + destruct (Z.eqb_spec (sa_family b) AF_INET6) as [Fb6|Fb6]; cbn [negb].
      * destruct (mapped_spec (sa_bytes a) (sa_bytes b) La Lb) as (r & E & R). exists r. split; [auto|]. rewrite R. unfold header. split; [intros Q; auto|intros (_ & _ & Q); auto].
      * exists false. split; [auto|]. split; [discriminate|]. intros (_ & ([?|?] & _) & _); contradiction.
  - destruct (Z.eqb_spec (sa_family a) AF_INET6) as [Fa6|Fa6]; cbn [negb].
    + destruct (Z.eqb_spec (sa_family b) AF_INET6) as [Fb6|Fb6].
      * assert (Nb: sa_family b =? AF_INET = false) by (rewrite Fb6; reflexivity). rewrite Nb.
        destruct (memeq_spec 16 (sa_bytes a) (sa_bytes b) 8 8) as (r & E & R); try (unfold zlen; lia). exists r. split; [auto|]. rewrite R. split; [|intros (_ & _ & Q); auto].
        intros Q. split; [auto|]. split; [auto|]. exact Q.
      * destruct (Z.eqb_spec (sa_family b) AF_INET) as [Fb|Fb]; cbn [negb].
        -- destruct (mapped_spec (sa_bytes b) (sa_bytes a) Lb La) as (r & E & R). exists r. split; [auto|]. rewrite R. unfold header. split; [intros Q; auto|intros (_ & _ & Q); auto].
        -- exists false. split; [auto|]. split; [discriminate|]. intros (_ & ([?|?] & _) & _); contradiction.
    + exists false. split; [auto|]. split; [discriminate|]. intros (([?|?] & _) & _); contradiction.
Qed.
(** an equivalence relation on IPv4 and IPv6 addresses *)
Theorem C58_equiv :
  (forall a, inet a -> hasSameAddr a a = Ok true) /\
  (forall a b, inet a -> inet b -> hasSameAddr a b = hasSameAddr b a) /\
  (forall a b c, inet a -> inet b -> inet c -> hasSameAddr a b = Ok true -> hasSameAddr b c = Ok true -> hasSameAddr a c = Ok true).
Proof.
  split; [|split].
  - intros a Ia. pose proof Ia as [_ L]. destruct (C58_same a a L L) as (r & -> & R). f_equal. apply R. auto.
  - intros a b Ia Ib. pose proof Ia as [_ La]. pose proof Ib as [_ Lb]. destruct (C58_same a b La Lb) as (r & -> & R). destruct (C58_same b a Lb La) as (q & -> & Q). f_equal.
    destruct r, q; auto; [|]; [symmetry; apply Q|apply R]; [destruct R as [R _]; destruct (R eq_refl) as (_ & _ & E)|destruct Q as [Q _]; destruct (Q eq_refl) as (_ & _ & E)]; auto.
  - intros a b c Ia Ib Ic. pose proof Ia as [_ La]. pose proof Ib as [_ Lb]. pose proof Ic as [_ Lc].
    destruct (C58_same a b La Lb) as (r & -> & R). destruct (C58_same b c Lb Lc) as (q & -> & Q). destruct (C58_same a c La Lc) as (p & -> & P). intros Er Eq.
    injection Er as ->. injection Eq as ->. f_equal. apply P. split; [auto|]. split; [auto|]. destruct R as [R _]. destruct (R eq_refl) as (_ & _ & E1). destruct Q as [Q _]. destruct (Q eq_refl) as (_ & _ & E2). congruence.
Qed.
(** an IPv4 address matches an IPv6 address exactly when that is its IPv4-mapped form; two of the same family exactly when equal *)
Theorem C58_mapped : forall a4 a6, sa_family a4 = AF_INET -> sa_family a6 = AF_INET6 -> length (sa_bytes a4) = 28%nat -> length (sa_bytes a6) = 28%nat ->
  (hasSameAddr a4 a6 = Ok true <-> firstn 16 (skipn 8 (sa_bytes a6)) = [0; 0; 0; 0; 0; 0; 0; 0; 0; 0; 255; 255] ++ firstn 4 (skipn 4 (sa_bytes a4))).
Proof.
  intros a b Fa Fb La Lb. destruct (C58_same a b La Lb) as (r & -> & R). unfold canon, inet in R. rewrite Fa, Fb in R. change (AF_INET =? AF_INET) with true in R. change (AF_INET6 =? AF_INET) with false in R. cbv iota in R. split.
  - intros E. injection E as ->. destruct R as [R _]. destruct (R eq_refl) as (_ & _ & Q). symmetry. exact Q.
  - intros Q. f_equal. apply R. auto.
Qed.
Theorem C58_same_family : forall a b, sa_family a = sa_family b -> inet a -> inet b ->
  (hasSameAddr a b = Ok true <-> if sa_family a =? AF_INET then firstn 4 (skipn 4 (sa_bytes a)) = firstn 4 (skipn 4 (sa_bytes b)) else firstn 16 (skipn 8 (sa_bytes a)) = firstn 16 (skipn 8 (sa_bytes b))).
Proof.
  intros a b F Ia Ib. pose proof Ia as [_ La]. pose proof Ib as [_ Lb]. destruct (C58_same a b La Lb) as (r & -> & R). unfold canon in R. rewrite <- F in R.
  split.
  - intros E. injection E as ->. destruct R as [R _]. destruct (R eq_refl) as (_ & _ & Q). destruct (sa_family a =? AF_INET); auto. apply app_inv_head in Q. auto.
  - intros Q. f_equal. apply R. split; [auto|]. split; [auto|]. destruct (sa_family a =? AF_INET); congruence.
Qed.
(** ** Finding: an address that was not set (family 0) is not even the same as itself *)
Theorem C58_unset_finding : forall l, hasSameAddr (mk_sa 0 l 0) (mk_sa 0 l 0) = Ok false.
Proof. reflexivity. Qed.
(** verify accepts exactly the two address kinds, with their sizes, and then the address is one hasSameAddr handles *)
Theorem C58_verify : forall a a', length (sa_bytes a) = 28%nat -> verify a = Ok a' -> inet a' /\ sa_bytes a' = sa_bytes a /\ exists p, getPort a' = Ok p.
Proof.
  intros a a' L. unfold verify. destruct (rd (sa_bytes a) 0) as [f0| | |]; try discriminate. destruct (rd (sa_bytes a) 1) as [f1| | |]; try discriminate. cbn [bind].
  assert (P: forall f, f = AF_INET \/ f = AF_INET6 -> exists p, getPort (mk_sa f (sa_bytes a) (sa_len a)) = Ok p).
  { intros f F. unfold getPort. cbn [sa_family sa_bytes]. rewrite !(rd_nth _ _ 0) by (unfold zlen; lia). destruct F as [-> | ->]; cbn; eauto. }
  destruct (_ && _); [intros E; injection E as <-; split; [split; auto|split; [auto|apply P; auto]]|].
  destruct (_ && _); [intros E; injection E as <-; split; [split; auto|split; [auto|apply P; auto]]|discriminate].
Qed.
Example C58_ex : let v4 := mk_sa AF_INET ([2; 0; 0; 80; 127; 0; 0; 1] ++ repeat 7 20) 16 in
  let v6 := mk_sa AF_INET6 ([10; 0; 1; 187; 0; 0; 0; 0] ++ [0; 0; 0; 0; 0; 0; 0; 0; 0; 0; 255; 255; 127; 0; 0; 1] ++ repeat 0 4) 28 in
  inet v4 /\ inet v6 /\ hasSameAddr v4 v6 = Ok true /\ getPort v4 = Ok 80 /\ getPort v6 = Ok 443.
Proof. cbv zeta. split; [split; [left; reflexivity|reflexivity]|]. split; [split; [right; reflexivity|reflexivity]|]. split; [|split]; reflexivity. Qed.

Print Assumptions C57_extension.
Print Assumptions C57_base.
Print Assumptions C57_base_unique.
Print Assumptions C57_agree.
Print Assumptions C57_slash.
Print Assumptions C57_exe.
Print Assumptions C57_list.
Print Assumptions C58_same.
Print Assumptions C58_equiv.
Print Assumptions C58_mapped.
Print Assumptions C58_same_family.
Print Assumptions C58_verify.
