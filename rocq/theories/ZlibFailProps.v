(** C121: a ZlibCompressorT whose output stream fails *)
Require Import Verif.Common Verif.StreamModel Verif.EndianModel Verif.EndianProps Verif.ZlibModel Verif.ZlibProps Verif.ZlibFailModel.
Ltac Zify.zify_post_hook ::= idtac.

(** ** Specification *)
(** log o: the bytes that arrived in the stream.  A write that returns has stored everything, one that throws a first part. *)
Record stream_ok {O} (put : O -> list Z -> bool * O) (log : O -> list Z) : Prop := {
  so_all : forall o b o', put o b = (true, o') -> log o' = log o ++ b;
  so_part : forall o b o', put o b = (false, o') -> exists p, prefix p b /\ log o' = log o ++ p }.
(** like std::ostream: after a failure every write fails and stores nothing *)
Definition sticky {O} (put : O -> list Z -> bool * O) : Prop := forall o b o', put o b = (false, o') -> forall b', put o' b' = (false, o').
(** nobody was told about a failure: no exception, nothing on stderr *)
Definition quiet {O} (r : life O) : Prop := l_built r = true /\ ~ In false (l_calls r) /\ l_msg r = false.
(** the complete file for some data *)
Definition whole (encodes : list Z -> list Z -> Prop) (gzip : bool) (data file : list Z) : Prop :=
  exists enc, encodes data enc /\ file = if gzip then gz_header ++ enc ++ le4 (zcrc32 0 data) ++ le4 (zlen data mod 2 ^ 32) else enc.
(** write each buffer, then flush k times (k = 0: leave it to the destructor) *)
Definition program (bufs : list (list Z)) (k : nat) : list fop := map FWrite bufs ++ repeat FFlush k.

Section Any.
Context {S : Type} (d_init : S) (deflate : S -> list Z -> bool -> Z -> zcall S) (little : bool) (room : Z).
Context {O : Type} (put : O -> list Z -> bool * O) (log : O -> list Z).
Notation wloop := (f_write_loop S deflate room O put).
Notation floop := (f_flush_loop S deflate room O put).
Notation lifeO := (f_life S d_init deflate little room O put).

(** *** when nothing is reported the file is complete *)
Section Quiet.
Hypothesis SO : stream_ok put log.

Lemma wloop_quiet : forall fuel inp z o z' o' pre, wloop fuel inp z o = Some (true, z', o') ->
  exists out, log o' = log o ++ out /\ c_write_loop S deflate room fuel inp z pre = Ok (z', pre ++ out).
Proof using SO.
  induction fuel as [|f IH]; intros inp z o z' o' pre E; (destruct inp as [|x inp]; [cbn in *; injection E as <- <-; exists []; rewrite !app_nil_r; auto|]).
  - discriminate.
  - cbn [f_write_loop c_write_loop] in *. destruct (deflate z (x :: inp) false room) as [[[[] k] out] z1]; try discriminate.
    + destruct (put o out) as [[] o1] eqn:P; [|discriminate]. destruct (IH _ _ _ _ _ (pre ++ out) E) as (q & L & C).
      exists (out ++ q). rewrite L, (so_all _ _ SO _ _ _ P), <- app_assoc. split; [reflexivity|]. rewrite C, <- app_assoc. reflexivity.
    + destruct (put o out) as [b o1] eqn:P. injection E as -> <- <-. exists out. rewrite (so_all _ _ SO _ _ _ P). auto.
Qed.
Lemma floop_quiet : forall fuel z o z' o' pre, floop fuel z o = Some (true, z', o') ->
  exists out, log o' = log o ++ out /\ c_flush_loop S deflate room fuel z pre = Ok (z', pre ++ out).
Proof using SO.
  induction fuel as [|f IH]; intros z o z' o' pre E; [discriminate|].
  cbn [f_flush_loop c_flush_loop] in *. destruct (deflate z [] true room) as [[[[] k] out] z1]; try discriminate.
  - destruct (put o out) as [[] o1] eqn:P; [|discriminate]. destruct (IH _ _ _ _ (pre ++ out) E) as (q & L & C).
    exists (out ++ q). rewrite L, (so_all _ _ SO _ _ _ P), <- app_assoc. split; [reflexivity|]. rewrite C, <- app_assoc. reflexivity.
  - destruct (put o out) as [b o1] eqn:P. injection E as -> <- <-. exists out. rewrite (so_all _ _ SO _ _ _ P). auto.
Qed.
(** the two models agree up to the stream *)
Definition same (o0 : O) (c : fcomp S O) (i : comp S) : Prop :=
  log (f_os c) = log o0 ++ c_os S i /\ f_crc c = c_crc S i /\ f_total c = c_total S i /\ f_z c = c_z S i /\ f_flushed c = c_flushed S i /\ f_gzip c = c_gzip S i.
Lemma write_quiet : forall fuel o0 c i buf c', same o0 c i -> f_write S deflate room O put fuel c buf = Some (true, c') ->
  exists i', c_write S deflate room fuel i buf = Ok i' /\ same o0 c' i' /\ f_flushed c' = f_flushed c.
Proof using SO.
  intros fuel o0 c i buf c' (A1 & A2 & A3 & A4 & A5 & A6) E. unfold f_write, c_write in *. destruct (2 ^ 31 <=? zlen buf); [discriminate|].
  destruct (wloop fuel buf (f_z c) (f_os c)) as [[[b z] o]|] eqn:W; [|discriminate]. injection E as -> <-.
  destruct (wloop_quiet _ _ _ _ _ _ (c_os S i) W) as (out & L & C). rewrite <- A4, C. cbn [bind]. eexists. split; [reflexivity|].
  unfold same. cbn. rewrite L, A1, <- app_assoc, A2, A3, A5, A6. auto 10.
Qed.
Lemma flush_quiet : forall fuel o0 c i c', same o0 c i -> f_flush S deflate little room O put fuel c = Some (true, c') ->
  exists i', c_flush S deflate little room fuel i = Ok i' /\ same o0 c' i' /\ f_flushed c' = true.
Proof using SO.
  intros fuel o0 c i c' (A1 & A2 & A3 & A4 & A5 & A6) E. unfold f_flush, c_flush in *. rewrite <- A5. destruct (f_flushed c) eqn:F.
  - injection E as <-. exists i. split; [auto|]. split; [|auto]. unfold same. rewrite F. auto 10.
  - destruct (floop fuel (f_z c) (f_os c)) as [[[[] z] o]|] eqn:W; try discriminate.
    destruct (floop_quiet _ _ _ _ _ (c_os S i) W) as (out & L & C). rewrite <- A4, C, <- A6. cbn [bind]. destruct (f_gzip c) eqn:G.
    + unfold f_tail in E. rewrite <- A2, <- A3.
      destruct (Set32bitAsLE little (repeat 0 8) (f_crc c)) as [t| | |]; cbn [bind] in *; try discriminate.
      destruct (at_off 4 t (fun q => Set32bitAsLE little q (f_total c))) as [t'| | |]; cbn [bind] in *; try discriminate.
      destruct (put o t') as [b o'] eqn:P. injection E as -> <-. eexists. split; [reflexivity|]. unfold same. cbn.
      rewrite (so_all _ _ SO _ _ _ P), L, A1, <- !app_assoc. auto 10.
    + injection E as <-. eexists. split; [reflexivity|]. unfold same. cbn. rewrite L, A1, <- app_assoc. auto 10.
Qed.
Lemma flushes_quiet : forall fuel k c bs c', f_flushed c = true -> f_calls S deflate little room O put fuel c (repeat FFlush k) = Some (bs, c') -> c' = c.
Proof using.
  intros fuel k. induction k as [|k IH]; intros c bs c' F E; cbn in E; [congruence|]. unfold f_flush in E. rewrite F in E.
  destruct (f_calls S deflate little room O put fuel c (repeat FFlush k)) as [[bs' c1]|] eqn:C; [|discriminate]. injection E as _ <-. eauto.
Qed.
Lemma calls_quiet : forall fuel o0 k bufs c i bs c', same o0 c i -> f_flushed c = false ->
  f_calls S deflate little room O put fuel c (program bufs k) = Some (bs, c') -> ~ In false bs ->
  exists i', c_writes S deflate room fuel i bufs = Ok i' /\
    match k with Datatypes.O => same o0 c' i' /\ f_flushed c' = false | _ => exists i'', c_flush S deflate little room fuel i' = Ok i'' /\ same o0 c' i'' /\ f_flushed c' = true end.
Proof using SO.
  intros fuel o0 k bufs. unfold program. induction bufs as [|b bufs IH]; intros c i bs c' Sm F E N.
  - cbn [map app c_writes] in *. exists i. split; [auto|]. destruct k as [|k].
    + cbn in E. injection E as <- <-. auto.
    + cbn [repeat f_calls f_call] in E. destruct (f_flush S deflate little room O put fuel c) as [[b1 c1]|] eqn:FE; [|discriminate].
      destruct (f_calls S deflate little room O put fuel c1 (repeat FFlush k)) as [[bs' c2]|] eqn:C; [|discriminate]. injection E as <- <-.
      destruct b1; [|exfalso; apply N; left; auto]. destruct (flush_quiet _ _ _ _ _ Sm FE) as (i' & A & B & D).
      pose proof (flushes_quiet _ _ _ _ _ D C) as ->. eauto.
  - cbn [map app f_calls f_call c_writes] in *. destruct (f_write S deflate room O put fuel c b) as [[b1 c1]|] eqn:W; [|discriminate].
    destruct (f_calls S deflate little room O put fuel c1 (map FWrite bufs ++ repeat FFlush k)) as [[bs' c2]|] eqn:C; [|discriminate]. injection E as <- <-.
    destruct b1; [|exfalso; apply N; left; auto]. destruct (write_quiet _ _ _ _ _ _ Sm W) as (i' & A & B & D). rewrite A. cbn [bind].
    apply (IH c1 i' bs' c2 B); [congruence|auto|]. intros Q. apply N. right. auto.
Qed.
(** the same bytes as the model of C60 *)
Theorem quiet_compress : forall fuel init o gzip bufs k r, lifeO fuel init o gzip (program bufs k) = Some r -> quiet r ->
  exists file, compress S d_init deflate little room fuel [] gzip bufs = Ok file /\ log (l_os r) = log o ++ file.
Proof using SO.
  intros fuel init o gzip bufs k r E (Q1 & Q2 & Q3). unfold f_life in E. destruct init; cbn [negb] in E; [|injection E as <-; discriminate].
  destruct (f_new S d_init O put o gzip) as [b c] eqn:N. destruct b; cbn [negb] in E; [|injection E as <-; discriminate].
  assert (Sm: same o c (c_new S d_init [] gzip) /\ f_flushed c = false).
  { unfold f_new in N. destruct gzip.
    - destruct (put o gz_header) as [b o1] eqn:P. injection N as -> <-. unfold same, c_new. cbn. rewrite (so_all _ _ SO _ _ _ P). auto 10.
    - injection N as <-. unfold same, c_new. cbn. rewrite app_nil_r. auto 10. }
  destruct Sm as [Sm F].
  destruct (f_calls S deflate little room O put fuel c (program bufs k)) as [[bs c1]|] eqn:C; [|discriminate].
  destruct (f_destroy S deflate little room O put fuel c1) as [[msg o1]|] eqn:D; [|discriminate]. injection E as <-. cbn [l_calls l_msg l_os] in *. subst msg.
  destruct (calls_quiet _ _ _ _ _ _ _ _ Sm F C Q2) as (i' & W & K). unfold compress. rewrite W. cbn [bind]. unfold f_destroy in D. destruct k as [|k].
  - destruct K as [K KF]. rewrite KF in D. destruct (f_flush S deflate little room O put fuel c1) as [[b c2]|] eqn:FE; [|discriminate].
    injection D as D <-. destruct b; [|discriminate]. destruct (flush_quiet _ _ _ _ _ K FE) as (i'' & A & (B & _) & _). rewrite A. cbn [bind]. eauto.
  - destruct K as (i'' & A & (B & _) & KF). rewrite KF in D. injection D as <-. rewrite A. cbn [bind]. eauto.
Qed.
End Quiet.

(** *** a flush counts once, whether it returned or threw *)
Theorem C121_flush_once : forall fuel c b c', f_flush S deflate little room O put fuel c = Some (b, c') ->
  forall fuel', f_flush S deflate little room O put fuel' c' = Some (true, c') /\ f_destroy S deflate little room O put fuel' c' = Some (false, f_os c').
Proof using.
  intros fuel c b c' E fuel'. assert (F: f_flushed c' = true).
  { unfold f_flush in E. destruct (f_flushed c) eqn:F; [congruence|].
    destruct (floop fuel (f_z c) (f_os c)) as [[[[] z] o]|]; try discriminate; [|injection E as <- <-; reflexivity].
    destruct (f_gzip c); [|injection E as <- <-; reflexivity]. destruct (f_tail S little O c) as [t| | |]; try discriminate.
    destruct (put o t) as [b1 o1]. injection E as <- <-. reflexivity. }
  unfold f_flush, f_destroy. rewrite F. auto.
Qed.

(** *** a stream that stays broken holds a first part of what a working one would hold *)
Definition stuck (o : O) : Prop := forall b, put o b = (false, o).
Lemma wloop_stuck : forall f inp z o, stuck o -> exists b z', wloop (Datatypes.S f) inp z o = Some (b, z', o).
Proof using.
  intros f inp z o K. destruct inp as [|x inp]; [cbn; eauto|]. cbn [f_write_loop]. destruct (deflate z (x :: inp) false room) as [[[[] k] out] z1]; rewrite ?K; eauto.
Qed.
Lemma floop_stuck : forall f z o, stuck o -> exists b z', floop (Datatypes.S f) z o = Some (b, z', o).
Proof using.
  intros f z o K. cbn [f_flush_loop]. destruct (deflate z [] true room) as [[[[] k] out] z1]; rewrite ?K; eauto.
Qed.
Lemma tail_ok : forall O' (c : fcomp S O'), f_tail S little O' c = Ok (le4 (f_crc c) ++ le4 (f_total c)).
Proof using.
  clear. intros O' c. unfold f_tail.
  pose proof (set_le_bytes 4 little (repeat 0 8) (f_crc c)) as S1. cbn [SetLE] in S1. rewrite S1 by (auto; try (simpl; lia); right; left; reflexivity). cbn [bind].
  rewrite at_off_exact by apply to_le_length.
  match goal with |- context [Set32bitAsLE little ?q ?x] => pose proof (set_le_bytes 4 little q x) as S2 end. cbn [SetLE] in S2. rewrite S2 by (auto; try (simpl; lia); right; left; reflexivity). cbn [bind].
  change (skipn 4 (skipn 4 (repeat 0 8))) with (@nil Z). rewrite app_nil_r, !le4_to_le. reflexivity.
Qed.
Lemma call_stuck : forall f c op, stuck (f_os c) -> exists b c', f_call S deflate little room O put (Datatypes.S f) c op = Some (b, c') /\ f_os c' = f_os c.
Proof using.
  intros f c op K. destruct op as [buf|].
  - cbn [f_call]. unfold f_write. destruct (2 ^ 31 <=? zlen buf); [eauto|]. destruct (wloop_stuck f buf (f_z c) (f_os c) K) as (b & z & ->). eexists _, _. split; reflexivity.
  - cbn [f_call]. unfold f_flush. destruct (f_flushed c); [eauto|]. destruct (floop_stuck f (f_z c) (f_os c) K) as (b & z & ->). destruct b; [|eexists _, _; split; reflexivity].
    destruct (f_gzip c); [|eexists _, _; split; reflexivity]. rewrite tail_ok, K. eexists _, _; split; reflexivity.
Qed.
End Any.

Section Prefix.
Context {S : Type} (d_init : S) (deflate : S -> list Z -> bool -> Z -> zcall S) (little : bool) (room : Z).
Context {O : Type} (put : O -> list Z -> bool * O) (log : O -> list Z).
Hypothesis SO : stream_ok put log.
Hypothesis ST : sticky put.
Notation wloop := (f_write_loop S deflate room O put).
Notation floop := (f_flush_loop S deflate room O put).
Notation wloop0 := (f_write_loop S deflate room (list Z) str_put).
Notation floop0 := (f_flush_loop S deflate room (list Z) str_put).

(** p: what the stream that may break holds, q: what a StringOutputStream holds *)
Definition behind (o0 o : O) (q : list Z) : Prop := stuck put o /\ exists p, log o = log o0 ++ p /\ prefix p q.
Lemma prefix_refl : forall p, prefix p p.
Proof using. intros p. exists []. rewrite app_nil_r. auto. Qed.
Lemma prefix_more : forall p q r, prefix p q -> prefix p (q ++ r).
Proof using. intros p q r [x ->]. exists (x ++ r). rewrite app_assoc. auto. Qed.
Lemma prefix_under : forall p q r, prefix p q -> prefix (r ++ p) (r ++ q).
Proof using. intros p q r [x ->]. exists x. rewrite app_assoc. auto. Qed.
Lemma put_step : forall o0 o q out, log o = log o0 ++ q -> exists b o', put o out = (b, o') /\
  if b then log o' = log o0 ++ (q ++ out) else behind o0 o' (q ++ out).
Proof using SO ST.
  intros o0 o q out L. destruct (put o out) as [b o'] eqn:P. exists b, o'. split; [auto|]. destruct b.
  - rewrite (so_all _ _ SO _ _ _ P), L, app_assoc. auto.
  - split; [exact (ST _ _ _ P)|]. destruct (so_part _ _ SO _ _ _ P) as (p & Hp & E). exists (q ++ p). rewrite E, L, app_assoc. split; [auto|]. apply prefix_under; auto.
Qed.
(** growth of the string *)
Lemma wloop0_grows : forall fuel inp z q b z' q', wloop0 fuel inp z q = Some (b, z', q') -> exists r, q' = q ++ r.
Proof using.
  induction fuel as [|f IH]; intros inp z q b z' q' E; (destruct inp as [|x inp]; [cbn in E; injection E as <- <- <-; exists []; rewrite app_nil_r; auto|]); [discriminate|].
  cbn [f_write_loop str_put] in E. destruct (deflate z (x :: inp) false room) as [[[[] k] out] z1].
  - destruct (IH _ _ _ _ _ _ E) as [r ->]. rewrite <- app_assoc. eauto.
  - injection E as <- <- <-. eauto.
  - injection E as <- <- <-. exists []. rewrite app_nil_r. auto.
  - injection E as <- <- <-. exists []. rewrite app_nil_r. auto.
Qed.
Lemma floop0_grows : forall fuel z q b z' q', floop0 fuel z q = Some (b, z', q') -> exists r, q' = q ++ r.
Proof using.
  induction fuel as [|f IH]; intros z q b z' q' E; [discriminate|].
  cbn [f_flush_loop str_put] in E. destruct (deflate z [] true room) as [[[[] k] out] z1].
  - destruct (IH _ _ _ _ _ E) as [r ->]. rewrite <- app_assoc. eauto.
  - injection E as <- <- <-. eauto.
  - injection E as <- <- <-. exists []. rewrite app_nil_r. auto.
  - injection E as <- <- <-. exists []. rewrite app_nil_r. auto.
Qed.
Lemma behind_more : forall o0 o q r, behind o0 o q -> behind o0 o (q ++ r).
Proof using. intros o0 o q r [A (p & B & C)]. split; [auto|]. exists p. split; [auto|]. apply prefix_more; auto. Qed.
Lemma wloop_sim : forall fuel inp z o0 o q b z' q', log o = log o0 ++ q -> wloop0 fuel inp z q = Some (b, z', q') ->
  exists b1 z1 o1, wloop fuel inp z o = Some (b1, z1, o1) /\ ((b1 = b /\ z1 = z' /\ log o1 = log o0 ++ q') \/ behind o0 o1 q').
Proof using SO ST.
  induction fuel as [|f IH]; intros inp z o0 o q b z' q' L E; (destruct inp as [|x inp]; [cbn in *; injection E as <- <- <-; eexists _, _, _; split; [reflexivity|]; left; auto|]); [discriminate|].
  cbn [f_write_loop str_put] in *. destruct (deflate z (x :: inp) false room) as [[[[] k] out] z1].
  - destruct (put_step o0 o q out L) as (b1 & o1 & -> & P). destruct b1.
    + eapply IH; eauto.
    + eexists _, _, _. split; [reflexivity|]. right. destruct (wloop0_grows _ _ _ _ _ _ _ E) as [r ->]. apply behind_more; auto.
  - injection E as <- <- <-. destruct (put_step o0 o q out L) as (b1 & o1 & -> & P). eexists _, _, _. split; [reflexivity|]. destruct b1; auto.
  - injection E as <- <- <-. eexists _, _, _. split; [reflexivity|]. auto.
  - injection E as <- <- <-. eexists _, _, _. split; [reflexivity|]. auto.
Qed.
Lemma floop_sim : forall fuel z o0 o q b z' q', log o = log o0 ++ q -> floop0 fuel z q = Some (b, z', q') ->
  exists b1 z1 o1, floop fuel z o = Some (b1, z1, o1) /\ ((b1 = b /\ z1 = z' /\ log o1 = log o0 ++ q') \/ (b1 = false /\ behind o0 o1 q')).
Proof using SO ST.
  induction fuel as [|f IH]; intros z o0 o q b z' q' L E; [discriminate|].
  cbn [f_flush_loop str_put] in *. destruct (deflate z [] true room) as [[[[] k] out] z1].
  - destruct (put_step o0 o q out L) as (b1 & o1 & -> & P). destruct b1.
    + eapply IH; eauto.
    + eexists _, _, _. split; [reflexivity|]. right. destruct (floop0_grows _ _ _ _ _ _ E) as [r ->]. split; [auto|]. apply behind_more; auto.
  - injection E as <- <- <-. destruct (put_step o0 o q out L) as (b1 & o1 & -> & P). eexists _, _, _. split; [reflexivity|]. destruct b1; auto.
  - injection E as <- <- <-. eexists _, _, _. split; [reflexivity|]. auto.
  - injection E as <- <- <-. eexists _, _, _. split; [reflexivity|]. auto.
Qed.
Definition sim (o0 : O) (c : fcomp S O) (i : fcomp S (list Z)) : Prop :=
  (log (f_os c) = log o0 ++ f_os i /\ f_crc c = f_crc i /\ f_total c = f_total i /\ f_z c = f_z i /\ f_flushed c = f_flushed i /\ f_gzip c = f_gzip i) \/
  behind o0 (f_os c) (f_os i).
Notation call := (f_call S deflate little room O put).
Notation call0 := (f_call S deflate little room (list Z) str_put).
Lemma call0_grows : forall fuel i op b i', call0 fuel i op = Some (b, i') -> exists r, f_os i' = f_os i ++ r.
Proof using.
  intros fuel i op b i' E. assert (Z0: exists r, f_os i = f_os i ++ r) by (exists []; rewrite app_nil_r; auto). destruct op as [buf|]; cbn [f_call] in E.
  - unfold f_write in E. destruct (2 ^ 31 <=? zlen buf); [injection E as <- <-; auto|].
    destruct (wloop0 fuel buf (f_z i) (f_os i)) as [[[b1 z] q]|] eqn:W; [|discriminate]. injection E as <- <-. cbn. eapply wloop0_grows; eauto.
  - unfold f_flush in E. destruct (f_flushed i); [injection E as <- <-; auto|].
    destruct (floop0 fuel (f_z i) (f_os i)) as [[[b1 z] q]|] eqn:W; [|discriminate]. destruct (floop0_grows _ _ _ _ _ _ W) as [r ->].
    destruct b1; [|injection E as <- <-; cbn; eauto]. destruct (f_gzip i); [|injection E as <- <-; cbn; eauto].
    rewrite tail_ok in E. cbn [str_put] in E. injection E as <- <-. cbn. rewrite <- app_assoc. eauto.
Qed.
Lemma call_sim : forall f o0 c i op b i', sim o0 c i -> call0 (Datatypes.S f) i op = Some (b, i') ->
  exists b1 c', call (Datatypes.S f) c op = Some (b1, c') /\ sim o0 c' i'.
Proof using SO ST.
  intros f o0 c i op b i' [Sm|B] E.
  - destruct Sm as (A1 & A2 & A3 & A4 & A5 & A6). destruct op as [buf|]; cbn [f_call] in *.
    + unfold f_write in *. destruct (2 ^ 31 <=? zlen buf); [injection E as <- <-; eexists _, _; split; [reflexivity|]; left; auto 10|].
      destruct (wloop0 (Datatypes.S f) buf (f_z i) (f_os i)) as [[[b1 z] q]|] eqn:W; [|discriminate]. injection E as <- <-.
      destruct (wloop_sim _ _ _ _ _ _ _ _ _ A1 W) as (b2 & z2 & o2 & W2 & R). rewrite A4, W2. eexists _, _. split; [reflexivity|]. unfold sim. cbn.
      destruct R as [(_ & -> & L)|R]; [left|right; auto]. rewrite A2, A3, A5, A6. auto 10.
    + unfold f_flush in *. rewrite A5. destruct (f_flushed i) eqn:Fi; [injection E as <- <-; eexists _, _; split; [reflexivity|]; left; rewrite Fi; auto 10|].
      destruct (floop0 (Datatypes.S f) (f_z i) (f_os i)) as [[[b1 z] q]|] eqn:W; [|discriminate].
      destruct (floop_sim _ _ _ _ _ _ _ _ A1 W) as (b2 & z2 & o2 & W2 & R). rewrite A4, W2. destruct R as [(-> & -> & L)|[-> R]].
      * destruct b1; [|injection E as <- <-; eexists _, _; split; [reflexivity|]; left; cbn; auto 10]. rewrite A6. destruct (f_gzip i); [|injection E as <- <-; eexists _, _; split; [reflexivity|]; left; cbn; auto 10].
        rewrite tail_ok in *. cbn [str_put] in E. injection E as <- <-. rewrite A2, A3. destruct (put_step o0 o2 q (le4 (f_crc i) ++ le4 (f_total i)) L) as (b3 & o3 & -> & P).
        eexists _, _. split; [reflexivity|]. unfold sim. cbn. destruct b3; [left; auto 10|right; auto].
      * eexists _, _. split; [reflexivity|]. right. cbn. destruct b1; [|injection E as <- <-; auto]. destruct (f_gzip i); [|injection E as <- <-; auto].
        rewrite tail_ok in E. cbn [str_put] in E. injection E as <- <-. cbn. apply behind_more; auto.
  - pose proof B as [K _]. destruct (call_stuck deflate little room put f c op K) as (b1 & c' & -> & Eo). eexists _, _. split; [reflexivity|]. right. rewrite Eo.
    destruct (call0_grows _ _ _ _ _ E) as [r ->]. apply behind_more; auto.
Qed.
Lemma calls_sim : forall f o0 ops c i bs i', sim o0 c i -> f_calls S deflate little room (list Z) str_put (Datatypes.S f) i ops = Some (bs, i') ->
  exists bs1 c', f_calls S deflate little room O put (Datatypes.S f) c ops = Some (bs1, c') /\ sim o0 c' i'.
Proof using SO ST.
  intros f o0 ops. induction ops as [|op ops IH]; intros c i bs i' Sm E; [cbn in *; injection E as <- <-; eauto|].
  cbn [f_calls] in *. destruct (call0 (Datatypes.S f) i op) as [[b i1]|] eqn:C; [|discriminate].
  destruct (f_calls S deflate little room (list Z) str_put (Datatypes.S f) i1 ops) as [[bs1 i2]|] eqn:C2; [|discriminate]. injection E as <- <-.
  destruct (call_sim _ _ _ _ _ _ _ Sm C) as (b1 & c1 & -> & Sm1). destruct (IH _ _ _ _ Sm1 C2) as (bs2 & c2 & -> & Sm2). eauto.
Qed.
Lemma destroy_as_flush : forall O' put' fuel (c : fcomp S O'), f_destroy S deflate little room O' put' fuel c =
  match f_flush S deflate little room O' put' fuel c with Some (b, c') => Some (negb b, f_os c') | None => None end.
Proof using. intros O' put' fuel c. unfold f_destroy. destruct (f_flushed c) eqn:F; [|auto]. unfold f_flush. rewrite F. auto. Qed.

(** whatever the program does, catching exceptions or not, the output is a first part of what it would have been *)
Theorem C121_prefix : forall fuel o gzip ops r0,
  f_life S d_init deflate little room (list Z) str_put (Datatypes.S fuel) true [] gzip ops = Some r0 ->
  exists r p, f_life S d_init deflate little room O put (Datatypes.S fuel) true o gzip ops = Some r /\
    log (l_os r) = log o ++ p /\ prefix p (l_os r0).
Proof using SO ST.
  intros fuel o gzip ops r0 E. unfold f_life in *. cbn [negb] in *.
  assert (E0: f_new S d_init (list Z) str_put [] gzip = (true, mk_f S (list Z) (if gzip then gz_header else []) (zcrc32 0 []) 0 d_init false gzip)) by (destruct gzip; reflexivity).
  rewrite E0 in E. cbn [negb] in E. clear E0.
  match type of E with context [f_calls _ _ _ _ _ _ _ ?i _] => set (i0 := i) in * end.
  destruct (f_calls S deflate little room (list Z) str_put (Datatypes.S fuel) i0 ops) as [[bs i1]|] eqn:C; [|discriminate].
  destruct (f_destroy S deflate little room (list Z) str_put (Datatypes.S fuel) i1) as [[m q]|] eqn:D; [|discriminate]. injection E as <-. cbn [l_os].
  rewrite destroy_as_flush in D. destruct (f_flush S deflate little room (list Z) str_put (Datatypes.S fuel) i1) as [[b i2]|] eqn:Fl; [|discriminate]. injection D as <- <-.
  destruct (f_new S d_init O put o gzip) as [bn c0] eqn:N. assert (Sm: if bn then sim o c0 i0 else behind o (f_os c0) (f_os i0)).
  { unfold f_new in N. destruct gzip.
    - destruct (put_step o o [] gz_header ltac:(rewrite app_nil_r; auto)) as (b1 & o1 & P & R). rewrite P in N. injection N as -> <-. destruct bn; [|exact R]. left. cbn. auto 10.
    - injection N as <- <-. left. cbn. rewrite app_nil_r. auto 10. }
  destruct bn; cbn [negb].
  - destruct (calls_sim _ _ _ _ _ _ _ Sm C) as (bs1 & c1 & -> & Sm1). rewrite destroy_as_flush. destruct (call_sim fuel o c1 i1 FFlush b i2 Sm1 Fl) as (b2 & c2 & F2 & Sm2).
    cbn [f_call] in F2. rewrite F2. destruct Sm2 as [(L & _)|[_ (p & L & Q)]]; eexists _, _; (split; [reflexivity|]); cbn [l_os]; split; eauto using prefix_refl.
  - destruct Sm as [_ (p & L & Q)]. eexists _, p. split; [reflexivity|]. cbn [l_os]. split; [auto|].
    assert (G: forall ops i bs i', f_calls S deflate little room (list Z) str_put (Datatypes.S fuel) i ops = Some (bs, i') -> exists r, f_os i' = f_os i ++ r).
    { clear. intros ops. induction ops as [|op ops IH]; intros i bs i' E; [cbn in E; injection E as <- <-; exists []; rewrite app_nil_r; auto|].
      cbn [f_calls] in E. destruct (call0 (Datatypes.S fuel) i op) as [[b i1]|] eqn:C; [|discriminate].
      destruct (f_calls S deflate little room (list Z) str_put (Datatypes.S fuel) i1 ops) as [[bs1 i2]|] eqn:C2; [|discriminate]. injection E as <- <-.
      destruct (call0_grows _ _ _ _ _ C) as [r1 R1]. destruct (IH _ _ _ C2) as [r2 ->]. rewrite R1, <- app_assoc. eauto. }
    destruct (G _ _ _ _ C) as [r1 R1]. destruct (call0_grows _ _ FFlush _ _ Fl) as [r2 ->]. rewrite R1. auto using prefix_more.
Qed.
End Prefix.

(** ** With zlib's contract: the calls end, and silence means a complete file *)
Section Contract.
Context {S : Type} (d_init : S) (deflate : S -> list Z -> bool -> Z -> zcall S) (encodes : list Z -> list Z -> Prop)
  (running finishing : S -> list Z -> list Z -> Prop) (bound : Z -> Z) (HD : deflate_ok d_init deflate encodes running finishing bound).
Variable little : bool.
Variable room : Z.
Hypothesis Hroom : 0 < room.
Context {O : Type} (put : O -> list Z -> bool * O) (log : O -> list Z).
Hypothesis SO : stream_ok put log.
Notation wloop := (f_write_loop S deflate room O put).
Notation floop := (f_flush_loop S deflate room O put).
Definition never_fails : Prop := forall o b, fst (put o b) = true.
Lemma never_put : forall o b c o', put o b = (c, o') -> never_fails -> c = true.
Proof using. intros o b c o' E N. specialize (N o b). rewrite E in N. auto. Qed.

Lemma wloop_ends : forall n inp z c o st, running z c o -> (length inp + Z.to_nat (bound (zlen c + zlen inp) - zlen o) <= n)%nat ->
  exists f0 b z' st' c' o', running z' c' o' /\ (never_fails -> b = true) /\ forall fuel, (f0 <= fuel)%nat -> wloop fuel inp z st = Some (b, z', st').
Proof using HD Hroom.
  intros n. induction n as [|n IH]; intros inp z c o st R M.
  - destruct inp as [|x inp]; [|simpl in M; lia]. exists 0%nat, true, z, st, c, o. split; [auto|]. split; [auto|]. intros fuel _. destruct fuel; reflexivity.
  - destruct inp as [|x inp]; [exists 0%nat, true, z, st, c, o; split; [auto|]; split; [auto|]; intros fuel _; destruct fuel; reflexivity|].
    destruct (do_run _ _ _ _ _ _ HD z c o (x :: inp) room R ltac:(discriminate) Hroom) as (k & out & z1 & E & Hk & Ho & R1 & P).
    destruct (put st out) as [[] st1] eqn:Pt.
    2:{ exists 1%nat, false, z1, st1, (c ++ firstn k (x :: inp)), (o ++ out). split; [auto|]. split; [intros N; exact (never_put _ _ _ _ Pt N)|].
        intros fuel Hf. destruct fuel as [|fuel]; [lia|]. cbn [f_write_loop]. rewrite E, Pt. reflexivity. }
    assert (B: zlen (o ++ out) <= bound (zlen c + zlen (x :: inp))).
    { pose proof (do_bound _ _ _ _ _ _ HD z1 _ _ (or_introl R1)) as B1. etransitivity; [exact B1|]. apply (do_mono _ _ _ _ _ _ HD). pose proof (zlen_nonneg (c ++ firstn k (x :: inp))).
      split; [auto|]. rewrite zlen_app, zlen_firstn_le by auto. unfold zlen. lia. }
    destruct (IH (skipn k (x :: inp)) z1 (c ++ firstn k (x :: inp)) (o ++ out) st1 R1) as (f0 & b & z' & st' & c' & o' & R' & N' & F).
    { rewrite skipn_length. rewrite (zlen_app c), zlen_firstn_le by auto. replace (zlen c + Z.of_nat k + zlen (skipn k (x :: inp))) with (zlen c + zlen (x :: inp)) by (unfold zlen; rewrite skipn_length; lia).
      rewrite zlen_app in *. destruct P as [P|P]; [|assert (1 <= zlen out) by (destruct out; [congruence|rewrite zlen_cons; pose proof (zlen_nonneg out); lia])]; pose proof (zlen_nonneg out); lia. }
    exists (Datatypes.S f0), b, z', st', c', o'. split; [auto|]. split; [auto|]. intros fuel Hf. destruct fuel as [|fuel]; [lia|]. cbn [f_write_loop]. rewrite E, Pt. apply F. lia.
Qed.
Lemma floop_ends : forall n z c o st, running z c o \/ finishing z c o -> (Z.to_nat (bound (zlen c) - zlen o) <= n)%nat ->
  exists f0 b z' st', (never_fails -> b = true) /\ forall fuel, (f0 <= fuel)%nat -> floop fuel z st = Some (b, z', st').
Proof using HD Hroom.
  intros n. induction n as [|n IH]; intros z c o st R M;
    destruct (do_fin _ _ _ _ _ _ HD z c o room R Hroom) as (r & k & out & z1 & E & Ho & [[-> En]|(-> & No & R1)]);
    destruct (put st out) as [b st1] eqn:Pt.
  - exists 1%nat, b, z1, st1. split; [intros N; exact (never_put _ _ _ _ Pt N)|]. intros fuel Hf. destruct fuel as [|fuel]; [lia|]. cbn [f_flush_loop]. rewrite E, Pt. auto.
  - exfalso. pose proof (do_bound _ _ _ _ _ _ HD z1 c (o ++ out) (or_intror R1)) as B. rewrite zlen_app in B. destruct out as [|y out]; [congruence|]. rewrite zlen_cons in B. pose proof (zlen_nonneg out). lia.
  - exists 1%nat, b, z1, st1. split; [intros N; exact (never_put _ _ _ _ Pt N)|]. intros fuel Hf. destruct fuel as [|fuel]; [lia|]. cbn [f_flush_loop]. rewrite E, Pt. auto.
  - destruct b.
    + destruct (IH z1 c (o ++ out) st1 (or_intror R1)) as (f0 & b & z' & st' & N & F).
      { rewrite zlen_app. destruct out as [|y out]; [congruence|]. rewrite zlen_cons. pose proof (zlen_nonneg out). lia. }
      exists (Datatypes.S f0), b, z', st'. split; [auto|]. intros fuel Hf. destruct fuel as [|fuel]; [lia|]. cbn [f_flush_loop]. rewrite E, Pt. apply F. lia.
    + exists 1%nat, false, z1, st1. split; [intros N; exact (never_put _ _ _ _ Pt N)|]. intros fuel Hf. destruct fuel as [|fuel]; [lia|]. cbn [f_flush_loop]. rewrite E, Pt. auto.
Qed.
Definition ready (c : fcomp S O) : Prop := f_flushed c = true \/ exists i o, running (f_z c) i o.
Lemma flush_ends : forall c, ready c -> exists f0 b c', f_flushed c' = true /\ (never_fails -> b = true) /\ forall fuel, (f0 <= fuel)%nat -> f_flush S deflate little room O put fuel c = Some (b, c').
Proof using HD Hroom.
  intros c [F|(i & o & R)]; [exists 0%nat, true, c; split; [auto|]; split; [auto|]; intros fuel _; unfold f_flush; rewrite F; auto|].
  destruct (f_flushed c) eqn:F; [exists 0%nat, true, c; split; [auto|]; split; [auto|]; intros fuel _; unfold f_flush; rewrite F; auto|].
  destruct (floop_ends _ (f_z c) i o (f_os c) (or_introl R) (le_n _)) as (f0 & b & z & st & N & E). destruct b.
  - destruct (f_gzip c) eqn:G.
    + destruct (put st (le4 (f_crc c) ++ le4 (f_total c))) as [b st1] eqn:P. exists f0, b, (mk_f S O st1 (f_crc c) (f_total c) z true true). split; [auto|].
      split; [intros Nv; exact (never_put _ _ _ _ P Nv)|]. intros fuel Hf. unfold f_flush. rewrite F, E, G, tail_ok, P by auto. auto.
    + exists f0, true, (mk_f S O st (f_crc c) (f_total c) z true false). split; [auto|]. split; [auto|]. intros fuel Hf. unfold f_flush. rewrite F, E, G by auto. auto.
  - exists f0, false, (mk_f S O st (f_crc c) (f_total c) z true (f_gzip c)). split; [auto|]. split; [auto|]. intros fuel Hf. unfold f_flush. rewrite F, E by auto. auto.
Qed.
Lemma write_ends : forall c buf i o, running (f_z c) i o -> exists f0 b c' i' o', running (f_z c') i' o' /\ (never_fails -> zlen buf < 2 ^ 31 -> b = true) /\
  forall fuel, (f0 <= fuel)%nat -> f_write S deflate room O put fuel c buf = Some (b, c').
Proof using HD Hroom.
  intros c buf i o R. unfold f_write. destruct (2 ^ 31 <=? zlen buf) eqn:L.
  - exists 0%nat, false, c, i, o. split; [auto|]. split; [|auto]. apply Z.leb_le in L. intros. lia.
  - destruct (wloop_ends _ buf (f_z c) i o (f_os c) R (le_n _)) as (f0 & b & z & st & i' & o' & R' & N & E).
    eexists f0, b, _, i', o'. split; [|split; [auto|intros fuel Hf; rewrite E by auto; reflexivity]]. auto.
Qed.
Lemma calls_end : forall k bufs c i o, running (f_z c) i o -> exists f0 bs c', ready c' /\ (never_fails -> Forall (fun b => zlen b < 2 ^ 31) bufs -> ~ In false bs) /\
  forall fuel, (f0 <= fuel)%nat -> f_calls S deflate little room O put fuel c (program bufs k) = Some (bs, c').
Proof using HD Hroom.
  intros k bufs. unfold program. induction bufs as [|b bufs IH]; intros c i o R; cbn [map app].
  - assert (G: ready c) by (right; eauto). clear R i o. revert c G. induction k as [|k IH]; intros c G.
    + exists 0%nat, [], c. auto.
    + destruct (flush_ends c G) as (f0 & b & c1 & F1 & N & E). destruct (IH c1 (or_introl F1)) as (f1 & bs & c2 & G2 & N2 & E2).
      exists (Nat.max f0 f1), (b :: bs), c2. split; [auto|]. split; [intros A B [Q|Q]; [rewrite (N A) in Q; discriminate|exact (N2 A B Q)]|].
      intros fuel Hf. cbn [repeat f_calls f_call]. rewrite E, E2 by lia. reflexivity.
  - destruct (write_ends c b i o R) as (f0 & b1 & c1 & i1 & o1 & R1 & N & E). destruct (IH c1 i1 o1 R1) as (f1 & bs & c2 & G2 & N2 & E2).
    exists (Nat.max f0 f1), (b1 :: bs), c2. split; [auto|].
    split; [intros A B; apply Forall_cons_iff in B; destruct B as [B1 B2]; intros [Q|Q]; [rewrite (N A B1) in Q; discriminate|exact (N2 A B2 Q)]|].
    intros fuel Hf. cbn [f_calls f_call]. rewrite E, E2 by lia. reflexivity.
Qed.
(** Every life ends: the calls and the destructor return or throw, the destructor never throws.
    Nothing reported: the stream received the complete file.  A stream that never fails: nothing is reported. *)
Theorem C121_complete : forall o gzip bufs k, exists f0 r,
  (forall fuel, (f0 <= fuel)%nat -> f_life S d_init deflate little room O put fuel true o gzip (program bufs k) = Some r) /\
  (quiet r -> exists file, whole encodes gzip (concat bufs) file /\ log (l_os r) = log o ++ file) /\
  (never_fails -> Forall (fun b => zlen b < 2 ^ 31) bufs -> quiet r).
Proof using HD Hroom SO.
  intros o gzip bufs k.
  assert (L: exists f0 r, (forall fuel, (f0 <= fuel)%nat -> f_life S d_init deflate little room O put fuel true o gzip (program bufs k) = Some r) /\ (never_fails -> Forall (fun b => zlen b < 2 ^ 31) bufs -> quiet r)).
  { unfold f_life. cbn [negb]. destruct (f_new S d_init O put o gzip) as [bn c] eqn:N. destruct bn; cbn [negb].
    - assert (R: running (f_z c) [] []). { unfold f_new in N. destruct (if gzip then put o gz_header else (true, o)) as [b o1]. injection N as -> <-. apply (do_init _ _ _ _ _ _ HD). }
      destruct (calls_end k bufs c [] [] R) as (f0 & bs & c1 & G & N1 & E). destruct (flush_ends c1 G) as (f1 & b & c2 & F2 & N2 & E2).
      exists (Nat.max f0 f1), (mk_life O true bs (negb b) (f_os c2) 0). split.
      + intros fuel Hf. rewrite E, destroy_as_flush, E2 by lia. reflexivity.
      + intros A B. split; [auto|]. split; [exact (N1 A B)|]. cbn. rewrite (N2 A). auto.
    - eexists 0%nat, _. split; [intros; reflexivity|]. intros A _. exfalso. unfold f_new in N. destruct gzip; [|discriminate].
      destruct (put o gz_header) as [b o1] eqn:P. injection N as -> _. discriminate (never_put _ _ _ _ P A). }
  destruct L as (f0 & r & E & Nv). exists f0, r. split; [auto|]. split; [|auto]. intros Q.
  assert (Sz: Forall (fun b => zlen b < 2 ^ 31) bufs).
  { destruct (quiet_compress d_init deflate little room put log SO f0 true o gzip bufs k r (E f0 (le_n _)) Q) as (file & C & _).
    unfold compress in C. revert C. generalize (c_new S d_init [] gzip). clear. intros c C. destruct (c_writes S deflate room f0 c bufs) as [c'| | |] eqn:W; try discriminate. clear C. revert c W.
    induction bufs as [|b bufs IH]; intros c W; [constructor|]. cbn [c_writes] in W. unfold c_write in W. destruct (2 ^ 31 <=? zlen b) eqn:L; [discriminate|]. apply Z.leb_gt in L. constructor; [auto|].
    match type of W with bind ?x _ = _ => destruct x as [c1| | |]; try discriminate end. eapply IH; eauto. }
  destruct (C60_compress d_init deflate encodes running finishing bound HD room Hroom little [] gzip bufs Sz) as (f1 & enc & En & C). cbn [app] in C.
  destruct (quiet_compress d_init deflate little room put log SO (Nat.max f0 f1) true o gzip bufs k r (E _ (Nat.le_max_l f0 f1)) Q) as (file & C2 & L2).
  rewrite C in C2 by lia. injection C2 as <-. eexists. split; [|exact L2]. exists enc. auto.
Qed.
End Contract.

(** ** The streams of stream.hpp *)
Theorem C121_streams : forall n, stream_ok (mem_put n) (fun l => l) /\ stream_ok (dev_put n) dv_data /\ sticky (dev_put n) /\ stream_ok str_put (fun l => l) /\ never_fails str_put.
Proof.
  intros n. repeat split.
  - intros o b o' E. unfold mem_put in E. destruct (n - zlen o <? zlen b); [discriminate|]. injection E as <-. reflexivity.
  - intros o b o' E. unfold mem_put in E. destruct (n - zlen o <? zlen b); [|discriminate]. injection E as <-. exists []. rewrite app_nil_r. split; [exists b|]; reflexivity.
  - intros o b o' E. unfold dev_put in E. destruct (dv_bad o); [discriminate|]. destruct (n - zlen (dv_data o) <? zlen b); [discriminate|]. injection E as <-. reflexivity.
  - intros o b o' E. unfold dev_put in E. destruct (dv_bad o); [injection E as <-; exists []; rewrite app_nil_r; split; [exists b|]; reflexivity|].
    destruct (n - zlen (dv_data o) <? zlen b); [|discriminate]. injection E as <-. cbn. eexists. split; [|reflexivity]. eexists. symmetry. apply firstn_skipn.
  - intros o b o' E b'. unfold dev_put in *. destruct (dv_bad o) eqn:B; [injection E as <-; rewrite B; reflexivity|].
    destruct (n - zlen (dv_data o) <? zlen b); [|discriminate]. injection E as <-. reflexivity.
  - intros o b o' E. injection E as <-. reflexivity.
  - intros o b o' E. discriminate.
Qed.

(** ** Finding: a flush that threw is taken as done: calling flush again returns normally and writes nothing, and the destructor is silent *)
Theorem C121_retry_finding : forall S deflate little room O put fuel (c c' : fcomp S O), f_flush S deflate little room O put fuel c = Some (false, c') ->
  f_flush S deflate little room O put fuel c' = Some (true, c') /\ f_destroy S deflate little room O put fuel c' = Some (false, f_os c').
Proof. intros S deflate little room O put fuel c c' E. exact (C121_flush_once deflate little room put fuel c false c' E fuel). Qed.

(** ** Finding: a program that leaves the flush to the destructor sees every call return although the file is cut: the failure only
    goes to stderr *)
Theorem C121_silent_finding : exists bufs r p, f_life (list Z) [] toy_deflate true 7 dev (dev_put 14) 40 true (mk_dev [] false) true (program bufs 0) = Some r /\
  l_built r = true /\ ~ In false (l_calls r) /\ l_msg r = true /\ dv_data (l_os r) = gz_header ++ p /\ zlen p = 4 /\
  ~ exists file, whole toy_encodes true (concat bufs) file /\ dv_data (l_os r) = file.
Proof.
  exists [[65]; [66; 67]]. eexists _, _. split; [vm_compute; reflexivity|]. split; [reflexivity|]. split; [intros [Q|[Q|[]]]; discriminate|]. split; [reflexivity|].
  split; [cbn; instantiate (1 := [1; 65; 1; 66]); reflexivity|]. split; [reflexivity|]. intros (file & (enc & _ & ->) & E). apply (f_equal zlen) in E.
  rewrite !zlen_app in E. change (zlen (le4 (zcrc32 0 (concat [[65]; [66; 67]])))) with 4 in E. change (zlen (le4 (zlen (concat [[65]; [66; 67]]) mod 2 ^ 32))) with 4 in E.
  change (zlen gz_header) with 10 in E. cbn [l_os dv_data] in E. change (zlen _) with 14 in E at 1. pose proof (zlen_nonneg enc). lia.
Qed.

(** a stream whose write throws once, at its n-th call, and works again *)
Definition flaky_put (s : nat * list Z) (b : list Z) : bool * (nat * list Z) :=
  match fst s with Datatypes.O => (true, (Datatypes.O, snd s ++ b)) | Datatypes.S Datatypes.O => (false, (Datatypes.O, snd s)) | Datatypes.S n => (true, (n, snd s ++ b)) end.
Example flaky_ok : stream_ok flaky_put snd.
Proof.
  split; intros [n l] b o' E; unfold flaky_put in E; cbn [fst snd] in E; destruct n as [|[|n]]; try discriminate; injection E as <-; cbn [snd]; auto.
  exists []. rewrite app_nil_r. split; [exists b|]; reflexivity.
Qed.
(** ** Finding: when write throws because the stream refused a block, the destructor still appends the rest and the trailer if the stream
    takes them (a MemoryOutputStream takes a small block after it refused a large one).  The stream then holds a file that looks finished
    and has a hole; it is not a first part of the right file, and neither the destructor nor any later call reports it *)
Theorem C121_hole_finding : exists bufs r r0, f_life (list Z) [] toy_deflate true 7 _ flaky_put 40 true (6%nat, []) true (program bufs 0) = Some r /\
  f_life (list Z) [] toy_deflate true 7 (list Z) str_put 40 true [] true (program bufs 0) = Some r0 /\
  l_calls r = [true; false] /\ l_msg r = false /\ ~ prefix (snd (l_os r)) (l_os r0).
Proof.
  exists [[65]; [66; 67]]. eexists _, _. split; [vm_compute; reflexivity|]. split; [vm_compute; reflexivity|]. split; [reflexivity|]. split; [reflexivity|].
  cbn [l_os snd]. intros [x E]. discriminate E.
Qed.
(** ** Finding: with gzip, a constructor that throws while it writes the header leaves the deflate state allocated: the destructor does not run
    for an object that was never built, so deflateEnd is not called *)
Theorem C121_leak_finding : forall S (d_init : S) deflate little room O put fuel (o o' : O) ops, put o gz_header = (false, o') ->
  f_life S d_init deflate little room O put fuel true o true ops = Some (mk_life O false [] false o' 1).
Proof. intros. unfold f_life, f_new. rewrite H. reflexivity. Qed.
(** in every other life the state is released *)
Theorem C121_released : forall S (d_init : S) deflate little room O put fuel init o gzip ops r,
  f_life S d_init deflate little room O put fuel init o gzip ops = Some r -> l_open r = if init && negb (l_built r) then 1 else 0.
Proof.
  intros S d_init deflate little room O put fuel init o gzip ops r E. unfold f_life in E. destruct init; cbn [negb] in E; [|injection E as <-; reflexivity].
  destruct (f_new S d_init O put o gzip) as [b c]. destruct b; cbn [negb] in E; [|injection E as <-; reflexivity].
  destruct (f_calls S deflate little room O put fuel c ops) as [[bs c1]|]; [|discriminate]. destruct (f_destroy S deflate little room O put fuel c1) as [[m o1]|]; [|discriminate].
  injection E as <-. reflexivity.
Qed.

(** ** Concrete lives *)
Example C121_full_device : f_life (list Z) [] toy_deflate true 7 dev (dev_put 13) 40 true (mk_dev [] false) true (program [[65]; [66; 67]] 2) =
  Some (mk_life dev true [true; false; false; true] false (mk_dev (gz_header ++ [1; 65; 1]) true) 0).
Proof. vm_compute. reflexivity. Qed.
Example C121_fits : forall k, exists f0 r, (forall fuel, (f0 <= fuel)%nat -> f_life (list Z) [] toy_deflate true 7 (list Z) str_put fuel true [9] true (program [[65]; [66; 67]] k) = Some r) /\ quiet r /\
  exists file, whole toy_encodes true [65; 66; 67] file /\ l_os r = [9] ++ file.
Proof.
  intros k. destruct (C121_complete [] toy_deflate toy_encodes toy_running toy_running _ toy_deflate_ok true 7 eq_refl str_put (fun l => l) (proj1 (proj2 (proj2 (proj2 (C121_streams 0))))) [9] true [[65]; [66; 67]] k) as (f0 & r & A & B & C).
  exists f0, r. split; [auto|]. assert (Q: quiet r) by (apply C; [exact (proj2 (proj2 (proj2 (proj2 (C121_streams 0)))))|repeat constructor]). split; [auto|]. exact (B Q).
Qed.
Print Assumptions C121_complete. Print Assumptions C121_prefix. Print Assumptions C121_flush_once. Print Assumptions C121_streams. Print Assumptions C121_released.
Print Assumptions C121_retry_finding. Print Assumptions C121_silent_finding. Print Assumptions C121_hole_finding. Print Assumptions C121_leak_finding.
