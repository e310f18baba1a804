(** C56: transfer loops of File (include/cybozu/file.hpp) and Socket (include/cybozu/socket.hpp) *)
Require Import Verif.Common Verif.TransferModel.

(** ** Specification *)
(** answers of the kernel that transfer something *)
Fixpoint positive (sched : list kres) : Z := match sched with [] => 0 | KN n :: r => (if 1 <=? n then 1 else 0) + positive r | _ :: r => positive r end.
Fixpoint answers (sched : list kres) : Z := match sched with [] => 0 | KN _ :: r => 1 + answers r | _ :: r => answers r end.
Definition take (n : Z) (l : list Z) : list Z := firstn (Z.to_nat n) l.

(** what a write may do: send a prefix of the n bytes, all of it if it returns *)
Definition write_spec (sched : list kres) (buf : list Z) (n : Z) (o : res unit * list Z) : Prop :=
  exists rest, take n buf = snd o ++ rest /\
    ((fst o = Ok tt /\ rest = []) \/ (fst o = Exn /\ rest <> [] /\ In KErr sched) \/ (fst o = Fuel /\ rest <> [])) /\
    (~ In KErr sched -> n <= positive sched -> fst o = Ok tt).

Lemma skipn_nonempty : forall (l : list Z) a n, 0 <= a < n -> n <= zlen l -> skipn (Z.to_nat a) (take n l) <> [].
Proof. intros l a n H1 H2 E. apply (f_equal (@length Z)) in E. unfold take, zlen in *. rewrite skipn_length, firstn_length in E. simpl in E. lia. Qed.
Lemma take_slice : forall (l : list Z) p k, 0 <= p -> 0 <= k -> take p l ++ slice l p k = take (p + k) l.
Proof.
  intros l p k Hp Hk. unfold take, slice. rewrite Z2Nat.inj_add by lia.
  generalize (Z.to_nat p) as a. generalize (Z.to_nat k) as b. clear. intros b a. revert l. induction a as [|a IH]; intros l; [reflexivity|].
  destruct l; [cbn [firstn skipn Nat.add app]; destruct b; reflexivity|]. cbn [firstn skipn Nat.add app]. f_equal. apply IH.
Qed.
Lemma slice_len : forall (l : list Z) p k, 0 <= p -> 0 <= k -> p + k <= zlen l -> zlen (slice l p k) = k.
Proof. intros. unfold slice, zlen in *. rewrite firstn_length, skipn_length. lia. Qed.

Lemma k_write_ok : forall buf p size n, 0 <= p -> 0 <= size -> p + size <= zlen buf -> exists got, k_write buf p size n = Ok got /\
  zlen got = Z.max 0 (Z.min n size) /\ take p buf ++ got = take (p + zlen got) buf.
Proof.
  intros buf p size n Hp Hs Hl. unfold k_write. destruct ((p <? 0) || (zlen buf <? p + size)) eqn:E; [lia|].
  eexists. split; [reflexivity|]. rewrite slice_len by lia. split; auto. apply take_slice; lia.
Qed.
Lemma take_split : forall (l : list Z) p n, 0 <= p <= n -> take n l = take p l ++ skipn (Z.to_nat p) (take n l).
Proof. intros l p n H. unfold take. rewrite <- (firstn_skipn (Z.to_nat p) (firstn (Z.to_nat n) l)) at 1. f_equal. rewrite firstn_firstn. f_equal. lia. Qed.

Lemma positive_nonneg : forall s, 0 <= positive s.
Proof. intros s. induction s as [|[]]; cbn [positive]; try lia. destruct (1 <=? n); lia. Qed.
Lemma maxIO_pos : 1 <= maxIO. Proof. unfold maxIO. lia. Qed.
Lemma file_write_gen : forall sched buf n p, 0 <= p <= n -> n <= zlen buf ->
  exists q, p <= q <= n /\ snd (file_write sched buf p (n - p) (take p buf)) = take q buf /\
  ((fst (file_write sched buf p (n - p) (take p buf)) = Ok tt /\ q = n) \/
   (fst (file_write sched buf p (n - p) (take p buf)) = Exn /\ q < n /\ In KErr sched) \/
   (fst (file_write sched buf p (n - p) (take p buf)) = Fuel /\ q < n)) /\
  (~ In KErr sched -> n - p <= positive sched -> fst (file_write sched buf p (n - p) (take p buf)) = Ok tt).
Proof.
  intros sched. induction sched as [|k sched IH]; intros buf n p Hp Hn; cbn [file_write].
  - destruct (Z.leb_spec (n - p) 0); cbn [fst snd]; exists p; (split; [lia|]; split; [auto|]); split; try (left; split; [auto|lia]); try (right; right; split; [auto|lia]); auto.
    cbn [positive]. lia.
  - destruct (Z.leb_spec (n - p) 0) as [L|L]; [exists p; cbn [fst snd]; split; [lia|]; split; [auto|]; split; [left; split; [auto|lia]|auto]|].
    destruct k as [| |m].
    + destruct (IH buf n p Hp Hn) as (q & Q1 & Q2 & Q3 & Q4). exists q. split; [lia|]. split; [auto|]. split.
      * destruct Q3 as [Q|[[? [? ?]]|Q]]; [left; auto|right; left; split; [auto|split; [auto|right; auto]]|right; right; auto].
      * intros N P. apply Q4; [intros I; apply N; right; auto|cbn [positive] in P; auto].
    + exists p. cbn [fst snd]. split; [lia|]. split; [auto|]. split; [right; left; split; [auto|split; [lia|left; auto]]|]. intros N. exfalso. apply N. left. auto.
    + pose proof maxIO_pos. destruct (k_write_ok buf p (Z.min maxIO (n - p)) m) as (got & E1 & E2 & E3); try lia. rewrite E1.
      rewrite E3. replace (n - p - zlen got) with (n - (p + zlen got)) by lia.
      destruct (IH buf n (p + zlen got)) as (q & Q1 & Q2 & Q3 & Q4); try lia.
      exists q. split; [lia|]. split; [auto|]. split.
      * destruct Q3 as [Q|[[? [? ?]]|Q]]; [left; auto|right; left; split; [auto|split; [auto|right; auto]]|right; right; auto].
      * intros N P. apply Q4; [intros I; apply N; right; auto|]. cbn [positive] in P. destruct (Z.leb_spec 1 m); lia.
Qed.
Theorem C56_file_write : forall sched buf n, 0 <= n <= zlen buf -> write_spec sched buf n (file_write sched buf 0 n []).
Proof.
  intros sched buf n H. destruct (file_write_gen sched buf n 0) as (q & Q1 & Q2 & Q3 & Q4); try lia. replace (n - 0) with n in * by lia.
  change (take 0 buf) with (@nil Z) in *. exists (skipn (Z.to_nat q) (take n buf)). rewrite Q2. split; [apply take_split; lia|]. split.
  - destruct Q3 as [[A ->]|[(A & B & C)|(A & B)]].
    + left. split; auto. apply skipn_all2. unfold take. rewrite firstn_length. lia.
    + right; left. split; auto. split; auto. apply skipn_nonempty; lia.
    + right; right. split; auto. apply skipn_nonempty; lia.
  - auto.
Qed.
Lemma sock_write_file : forall sched buf p n sent,
  ((let! b := fst (sock_write_b sched buf p n sent) in if b then Ok tt else Exn), snd (sock_write_b sched buf p n sent)) = file_write sched buf p n sent.
Proof.
  intros sched. induction sched as [|k sched IH]; intros buf p n sent; cbn [sock_write_b file_write]; destruct (n <=? 0); try reflexivity.
  destruct k; [apply IH|reflexivity|]. destruct (k_write _ _ _ _); try reflexivity. apply IH.
Qed.
Theorem C56_sock_write : forall sched buf n, 0 <= n <= zlen buf -> write_spec sched buf n (sock_write sched buf n).
Proof.
  intros sched buf n H. replace (sock_write sched buf n) with (file_write sched buf 0 n []); [apply C56_file_write; auto|].
  rewrite <- sock_write_file. unfold sock_write. destruct (sock_write_b sched buf 0 n []). reflexivity.
Qed.
(** a short write, an interruption, a write of 0 bytes and the rest: [1;2;3;4;5] goes out once and in order *)
Example C56_write_ex : file_write [KN 2; KEintr; KN 0; KN 7] [1; 2; 3; 4; 5; 9] 0 5 [] = (Ok tt, [1; 2; 3; 4; 5]).
Proof. reflexivity. Qed.
Example C56_write_ex2 : sock_write [KN 2; KErr] [1; 2; 3; 4; 5; 9] 5 = (Exn, [1; 2]).
Proof. reflexivity. Qed.

(** ** Reading: the bytes delivered are the next ones of the stream, at the start of the buffer, the rest of the buffer is unchanged *)
Definition read_effect (src buf : list Z) (s : rstate) (got : list Z) : Prop := src = got ++ rs_src s /\ rs_buf s = got ++ skipn (length got) buf.
Definition sock_read_spec (sched : list kres) (src buf : list Z) (n : Z) (o : res unit * rstate) : Prop :=
  exists got, read_effect src buf (snd o) got /\
    ((fst o = Ok tt /\ zlen got = n) \/
     (fst o = Exn /\ zlen got < n /\ (In KErr sched \/ rs_src (snd o) = [])) \/
     (fst o = Fuel /\ zlen got < n)) /\
    (~ In KErr sched -> n <= zlen src -> n <= answers sched -> fst o = Ok tt) /\
    (~ In KErr sched -> zlen src < n -> zlen src + 1 <= answers sched -> fst o = Exn).
Definition file_read_spec (sched : list kres) (src buf : list Z) (n : Z) (o : res unit * rstate) : Prop :=
  exists got, read_effect src buf (snd o) got /\
    ((fst o = Ok tt /\ zlen got = n) \/
     (fst o = Exn /\ zlen got < n /\ In KErr sched) \/
     (fst o = Fuel /\ zlen got < n)) /\
    (~ In KErr sched -> n <= zlen src -> n <= answers sched -> fst o = Ok tt).

(** one readSome, from the state reached after delivering got *)
Lemma readSome_gen : forall sched src0 buf0 got src n,
  src0 = got ++ src -> zlen got < n -> n <= zlen buf0 ->
  match readSome sched (got ++ skipn (length got) buf0) src (zlen got) (n - zlen got) with
  | (Ok k, s') => exists d, k = zlen d /\ src = d ++ rs_src s' /\ rs_buf s' = (got ++ d) ++ skipn (length (got ++ d)) buf0 /\ zlen got + k <= n /\
      (k = 0 -> src = []) /\ (length (rs_sched s') < length sched)%nat /\ (In KErr (rs_sched s') -> In KErr sched) /\ answers (rs_sched s') + 1 = answers sched
  | (Exn, s') => In KErr sched /\ rs_src s' = src /\ rs_buf s' = got ++ skipn (length got) buf0
  | (Fuel, s') => answers sched = 0 /\ rs_src s' = src /\ rs_buf s' = got ++ skipn (length got) buf0 \/ In KErr sched /\ False
  | (UB, _) => False
  end.
Proof.
  intros sched src0 buf0 got src n E L Hn. induction sched as [|k sched IH]; cbn [readSome answers].
  - left. cbn [rs_src rs_buf]. auto.
  - destruct k as [| |m].
    + destruct (readSome sched _ src (zlen got) (n - zlen got)) as [[k| | |] s'].
      * destruct IH as (d & A1 & A2 & A3 & A4 & A5 & A6 & A7 & A8). exists d. split; [auto|]. split; [auto|]. split; [auto|]. split; [auto|]. split; [auto|]. split; [simpl; lia|]. split; [intros; right; auto|auto].
      * destruct IH as (A1 & A2 & A3). split; [right; auto|auto].
      * auto.
      * destruct IH as [IH|[? []]]. left. auto.
    + cbn [rs_src rs_buf]. split; [left; auto|auto].
    + assert (Lb: zlen (got ++ skipn (length got) buf0) = zlen buf0) by (unfold zlen in *; rewrite app_length, skipn_length; lia).
      rewrite Lb. pose proof (zlen_nonneg got). pose proof (zlen_nonneg src). pose proof maxIO_pos.
      destruct ((zlen got <? 0) || (zlen buf0 <? zlen got + Z.min maxIO (n - zlen got))) eqn:B; [lia|].
      set (k := k_read src (Z.min maxIO (n - zlen got)) m).
      assert (K: 0 <= k <= zlen src /\ k <= n - zlen got /\ (k = 0 -> zlen src = 0)). { unfold k, k_read. lia. }
      assert (Kd: zlen (firstn (Z.to_nat k) src) = k) by (unfold zlen in *; rewrite firstn_length; lia).
      exists (firstn (Z.to_nat k) src). cbn [rs_src rs_buf rs_sched]. split; [auto|]. split; [symmetry; apply firstn_skipn|]. split.
      * unfold blit. rewrite to_nat_zlen, firstn_app_exact, app_assoc. f_equal.
        rewrite app_length. generalize (length (firstn (Z.to_nat k) src)) as a. intros a. clear.
        rewrite skipn_app, (skipn_all2 got) by lia. cbn [app]. rewrite skipn_skipn. f_equal. lia.
      * split; [lia|]. split; [intros K0; destruct src; auto; exfalso; destruct K as (_ & _ & K); specialize (K K0); rewrite zlen_cons in K; pose proof (zlen_nonneg src); lia|].
        split; [simpl; lia|]. split; [intros; right; auto|lia].
Qed.
Lemma answers_nonneg : forall s, 0 <= answers s. Proof. intros s. induction s as [|[]]; cbn [answers]; lia. Qed.
Lemma answers_len : forall s, answers s <= zlen s. Proof. intros s. induction s as [|[]]; cbn [answers]; rewrite ?zlen_cons; try lia. reflexivity. Qed.

Lemma sock_read_gen : forall fuel src0 buf0 got src sched n, src0 = got ++ src -> zlen got <= n -> n <= zlen buf0 -> (length sched <= fuel)%nat ->
  let o := sock_read fuel (mk_rs (got ++ skipn (length got) buf0) src sched) (zlen got) (n - zlen got) in
  exists got', read_effect src0 buf0 (snd o) got' /\
    ((fst o = Ok tt /\ zlen got' = n) \/ (fst o = Exn /\ zlen got' < n /\ (In KErr sched \/ rs_src (snd o) = [])) \/ (fst o = Fuel /\ zlen got' < n)) /\
    (~ In KErr sched -> n - zlen got <= zlen src -> n - zlen got <= answers sched -> fst o = Ok tt) /\
    (~ In KErr sched -> zlen src < n - zlen got -> zlen src + 1 <= answers sched -> fst o = Exn).
Proof.
  intros fuel. induction fuel as [|f IH]; intros src0 buf0 got src sched n E L Hn Hf; cbn [sock_read]; cbv zeta.
  - destruct sched; [|simpl in Hf; lia]. destruct (Z.leb_spec (n - zlen got) 0); cbn [fst snd]; exists got; (split; [split; auto|]); cbn [answers]; pose proof (zlen_nonneg src).
    + split; [left; split; [auto|lia]|]. split; [auto|]. lia.
    + split; [right; right; split; [auto|lia]|]. split; lia.
  - destruct (Z.leb_spec (n - zlen got) 0) as [Z0|Z0]; cbn [fst snd].
    + exists got. split; [split; auto|]. pose proof (zlen_nonneg src). split; [left; split; [auto|lia]|]. split; [auto|]. lia.
    + cbn [rs_sched rs_buf rs_src]. pose proof (readSome_gen sched src0 buf0 got src n E ltac:(lia) Hn) as R.
      destruct (readSome sched _ src (zlen got) (n - zlen got)) as [[k| | |] s'].
      * destruct R as (d & A1 & A2 & A3 & A4 & A5 & A6 & A7 & A8). pose proof (zlen_nonneg d). destruct (Z.eqb_spec k 0) as [K0|K0].
        -- cbn [fst snd]. exists got. assert (d = []) by (destruct d; [auto|rewrite zlen_cons in A1; pose proof (zlen_nonneg d); lia]). subst d. rewrite app_nil_r in A3. cbn [app] in A2.
           split; [split; [congruence|auto]|]. split; [right; left; split; [auto|split; [lia|right; rewrite <- A2; apply A5; auto]]|].
           rewrite (A5 K0). split; [rewrite zlen_nil; lia|auto].
        -- assert (Es: s' = mk_rs ((got ++ d) ++ skipn (length (got ++ d)) buf0) (rs_src s') (rs_sched s')) by (rewrite <- A3; destruct s'; reflexivity).
           rewrite Es. replace (zlen got + k) with (zlen (got ++ d)) by (rewrite zlen_app; lia). replace (n - zlen got - k) with (n - zlen (got ++ d)) by (rewrite zlen_app; lia).
           destruct (IH src0 buf0 (got ++ d) (rs_src s') (rs_sched s') n) as (got' & B1 & B2 & B3 & B4).
           { rewrite <- app_assoc, <- A2. auto. } { rewrite zlen_app. lia. } { auto. } { lia. }
           exists got'. split; [auto|]. split; [|split].
           ++ destruct B2 as [B2|[(B2 & B5 & B6)|B2]]; [left; auto|right; left; split; [auto|split; [auto|]]|right; right; auto]. destruct B6; auto.
           ++ intros N1 N2 N3. apply B3; [auto| |]; rewrite zlen_app; [|lia]. rewrite A2, zlen_app in N2. lia.
           ++ intros N1 N2 N3. apply B4; [auto| |]; rewrite ?zlen_app; rewrite A2, zlen_app in *; lia.
      * destruct R as (A1 & A2 & A3). exists got. cbn [fst snd]. split; [split; congruence|]. split; [right; left; split; [auto|split; [lia|auto]]|]. split; intros N; exfalso; auto.
      * destruct R.
      * destruct R as [(A1 & A2 & A3)|[? []]]. exists got. cbn [fst snd]. split; [split; congruence|]. split; [right; right; split; [auto|lia]|]. pose proof (zlen_nonneg src). split; lia.
Qed.
Theorem C56_sock_read : forall sched src buf n, 0 <= n <= zlen buf -> sock_read_spec sched src buf n (run_sock_read sched src buf n).
Proof.
  intros sched src buf n H. pose proof (sock_read_gen (length sched) src buf [] src sched n eq_refl ltac:(rewrite zlen_nil; lia) ltac:(lia) ltac:(lia)) as G.
  rewrite zlen_nil in G. replace (n - 0) with n in G by lia. cbv zeta in G. exact G.
Qed.
Lemma file_read_gen : forall fuel src0 buf0 got src sched n, src0 = got ++ src -> zlen got <= n -> n <= zlen buf0 -> (length sched <= fuel)%nat ->
  let o := file_read fuel (mk_rs (got ++ skipn (length got) buf0) src sched) (zlen got) (n - zlen got) in
  exists got', read_effect src0 buf0 (snd o) got' /\
    ((fst o = Ok tt /\ zlen got' = n) \/ (fst o = Exn /\ zlen got' < n /\ In KErr sched) \/ (fst o = Fuel /\ zlen got' < n)) /\
    (~ In KErr sched -> n - zlen got <= zlen src -> n - zlen got <= answers sched -> fst o = Ok tt).
Proof.
  intros fuel. induction fuel as [|f IH]; intros src0 buf0 got src sched n E L Hn Hf; cbn [file_read]; cbv zeta.
  - destruct sched; [|simpl in Hf; lia]. destruct (Z.leb_spec (n - zlen got) 0); cbn [fst snd]; exists got; (split; [split; auto|]); cbn [answers]; pose proof (zlen_nonneg src).
    + split; [left; split; [auto|lia]|]. auto.
    + split; [right; right; split; [auto|lia]|]. lia.
  - destruct (Z.leb_spec (n - zlen got) 0) as [Z0|Z0]; cbn [fst snd].
    + exists got. split; [split; auto|]. pose proof (zlen_nonneg src). split; [left; split; [auto|lia]|]. auto.
    + cbn [rs_sched rs_buf rs_src]. pose proof (readSome_gen sched src0 buf0 got src n E ltac:(lia) Hn) as R.
      destruct (readSome sched _ src (zlen got) (n - zlen got)) as [[k| | |] s'].
      * destruct R as (d & A1 & A2 & A3 & A4 & A5 & A6 & A7 & A8). pose proof (zlen_nonneg d).
        assert (Es: s' = mk_rs ((got ++ d) ++ skipn (length (got ++ d)) buf0) (rs_src s') (rs_sched s')) by (rewrite <- A3; destruct s'; reflexivity).
        rewrite Es. replace (zlen got + k) with (zlen (got ++ d)) by (rewrite zlen_app; lia). replace (n - zlen got - k) with (n - zlen (got ++ d)) by (rewrite zlen_app; lia).
        destruct (IH src0 buf0 (got ++ d) (rs_src s') (rs_sched s') n) as (got' & B1 & B2 & B3).
        { rewrite <- app_assoc, <- A2. auto. } { rewrite zlen_app. lia. } { auto. } { lia. }
        exists got'. split; [auto|]. split.
        ++ destruct B2 as [B2|[(B2 & B5 & B6)|B2]]; [left; auto|right; left; split; [auto|split; auto]|right; right; auto].
        ++ intros N1 N2 N3. apply B3; [auto| |]; rewrite zlen_app; [rewrite A2, zlen_app in N2; lia|]. destruct (Z.eq_dec k 0) as [K0|K0]; [|lia].
           rewrite (A5 K0), zlen_nil in N2. lia.
      * destruct R as (A1 & A2 & A3). exists got. cbn [fst snd]. split; [split; congruence|]. split; [right; left; split; [auto|split; [lia|auto]]|]. intros N; exfalso; auto.
      * destruct R.
      * destruct R as [(A1 & A2 & A3)|[? []]]. exists got. cbn [fst snd]. split; [split; congruence|]. split; [right; right; split; [auto|lia]|]. pose proof (zlen_nonneg src). lia.
Qed.
Theorem C56_file_read : forall sched src buf n, 0 <= n <= zlen buf -> file_read_spec sched src buf n (run_file_read sched src buf n).
Proof.
  intros sched src buf n H. pose proof (file_read_gen (length sched) src buf [] src sched n eq_refl ltac:(rewrite zlen_nil; lia) ltac:(lia) ltac:(lia)) as G.
  rewrite zlen_nil in G. replace (n - 0) with n in G by lia. cbv zeta in G. exact G.
Qed.
(** ** Finding: File::read asked for more than the file has never returns, however often the kernel answers *)
Theorem C56_file_read_eof_finding : forall sched src buf n, zlen src < n <= zlen buf -> ~ In KErr sched -> fst (run_file_read sched src buf n) = Fuel.
Proof.
  intros sched src buf n H N. destruct (C56_file_read sched src buf n) as (got & [E1 _] & C & _); [pose proof (zlen_nonneg src); lia|].
  destruct C as [[_ L]|[(_ & _ & K)|[F _]]]; [|tauto|auto]. exfalso. rewrite E1, zlen_app in H. pose proof (zlen_nonneg (rs_src (snd (run_file_read sched src buf n)))). lia.
Qed.
Example C56_read_ex : run_sock_read [KN 2; KEintr; KN 9] [1; 2; 3; 4; 5] [0; 0; 0; 0; 7] 4 = (Ok tt, mk_rs [1; 2; 3; 4; 7] [5] []).
Proof. reflexivity. Qed.
Example C56_read_ex2 : run_sock_read [KN 2; KN 1; KN 1] [1; 2; 3] [0; 0; 0; 0; 7] 4 = (Exn, mk_rs [1; 2; 3; 0; 7] [] []).
Proof. reflexivity. Qed.
Example C56_read_ex3 : run_file_read [KN 2; KN 9] [1; 2; 3; 4; 5] [0; 0; 0; 0; 7] 4 = (Ok tt, mk_rs [1; 2; 3; 4; 7] [5] []).
Proof. reflexivity. Qed.

Print Assumptions C56_file_write.
Print Assumptions C56_sock_write.
Print Assumptions C56_sock_read.
Print Assumptions C56_file_read.
Print Assumptions C56_file_read_eof_finding.
