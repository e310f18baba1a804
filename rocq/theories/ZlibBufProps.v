(** C114: ZlibCompress, ZlibUncompress and zlib_smpl. *)
Require Import Verif.Common Verif.CsvFileModel Verif.ZlibBufModel.
Ltac Zify.zify_post_hook ::= idtac.

Lemma put_ok (out d : list Z) : zlen d <= zlen out -> put out d = Ok (d ++ skipn (length d) out).
Proof. intros H. unfold put. destruct (Z.leb_spec (zlen d) (zlen out)); auto; lia. Qed.
Lemma firstn_zlen (d : list Z) n : 0 <= n -> zlen (firstn (Z.to_nat n) d) <= n.
Proof. intros H. unfold zlen. rewrite firstn_length. lia. Qed.
Lemma take_all (d rest : list Z) : take (d ++ rest) (zlen d) = Ok d.
Proof. unfold take. rewrite zlen_app. pose proof (zlen_nonneg rest). destruct (Z.leb_spec (zlen d) (zlen d + zlen rest)); [|lia]. unfold zlen. rewrite Nat2Z.id, firstn_app, firstn_all, Nat.sub_diag. cbn. rewrite app_nil_r. auto. Qed.
Section Zlib.
Variables (bits : Z) (deflate : Z -> list Z -> list Z) (inflate : list Z -> option (list Z)).
(** what is asked of zlib: its streams are not empty and are read back *)
Hypothesis Hne : forall level d, deflate level d <> [].
Hypothesis Hinv : forall level d, inflate (deflate level d) = Some d.

Lemma nonempty level d : 0 < zlen (deflate level d).
Proof using Hne. clear Hinv inflate. pose proof (Hne level d). destruct (deflate level d); [congruence|]. rewrite zlen_cons. pose proof (zlen_nonneg l). lia. Qed.

(** * C114 *)
(** ZlibCompress makes the stream of the data if there is room for it and returns its length, else it returns 0, which is never a length;
    a bad level or lack of memory is an exception.  Nothing is written behind the maxOutSize bytes. *)
Theorem C114_compress : forall mem out data inRest max level, zlen data < 2 ^ bits -> 0 <= max < 2 ^ bits -> zlen out = max -> forall outRest,
  exists out', zlen out' = max /\
  ZlibCompress bits deflate mem (out ++ outRest) max (data ++ inRest) (zlen data) level =
    Ok (if ((-1 <=? level) && (level <=? 9) && mem)%bool then Ok (if zlen (deflate level data) <=? max then zlen (deflate level data) else 0) else Exn, out' ++ outRest) /\
  ((-1 <= level <= 9) -> mem = true -> zlen (deflate level data) <= max -> firstn (Z.to_nat (zlen (deflate level data))) out' = deflate level data).
Proof using.
  clear Hne Hinv inflate.
  intros mem out data inRest max level Hd Hm Ho outRest. unfold ZlibCompress. rewrite !Z.mod_small by (pose proof (zlen_nonneg data); lia). rewrite take_all. cbn [bind]. unfold compress2.
  replace ((level <? -1) || (9 <? level))%bool with (negb ((-1 <=? level) && (level <=? 9))) by (destruct (Z.leb_spec (-1) level), (Z.leb_spec level 9), (Z.ltb_spec level (-1)), (Z.ltb_spec 9 level); auto; lia).
  assert (forall d, zlen d <= max -> exists out', zlen out' = max /\ put (out ++ outRest) d = Ok (out' ++ outRest) /\ firstn (length d) out' = d) as P.
  { intros d Ld. exists (d ++ skipn (length d) out). split; [unfold zlen in *; rewrite app_length, skipn_length; lia|]. split.
    - rewrite put_ok by (rewrite zlen_app; pose proof (zlen_nonneg outRest); lia). rewrite skipn_app. replace (length d - length out)%nat with 0%nat by (unfold zlen in *; lia). rewrite <- app_assoc. reflexivity.
    - rewrite firstn_app, Nat.sub_diag, firstn_all. cbn. apply app_nil_r. }
  destruct ((-1 <=? level) && (level <=? 9))%bool eqn:El; cbn [negb andb].
  - destruct mem; cbn [negb].
    + destruct (Z.leb_spec (zlen (deflate level data)) max).
      * destruct (P _ H) as (out' & L & -> & F). cbn [bind]. exists out'. split; auto. split; [reflexivity|]. intros _ _ _. unfold zlen. rewrite Nat2Z.id. auto.
      * destruct (P (firstn (Z.to_nat max) (deflate level data))) as (out' & L & -> & F); [apply firstn_zlen; lia|]. cbn [bind]. exists out'. split; auto. split; [reflexivity|]. intros; lia.
    + destruct (P [] ltac:(change (zlen (@nil Z)) with 0; lia)) as (out' & L & -> & F). cbn [bind]. exists out'. split; auto. split; [reflexivity|]. intros; discriminate.
  - destruct (P [] ltac:(change (zlen (@nil Z)) with 0; lia)) as (out' & L & -> & F). cbn [bind]. exists out'. split; auto. split; [reflexivity|]. intros X. exfalso. apply andb_false_iff in El. destruct El as [El|El]; apply Z.leb_gt in El; lia.
Qed.
Theorem C114_zero_is_no_length : forall level data, zlen (deflate level data) <> 0.
Proof using Hne. clear Hinv inflate. intros level data E. pose proof (nonempty level data). lia. Qed.
(** ZlibUncompress returns the length of the data of the stream and the data if there is room, else it throws *)
Theorem C114_uncompress : forall mem out s inRest max, zlen s < 2 ^ bits -> 0 <= max < 2 ^ bits -> zlen out = max -> forall outRest,
  exists out', zlen out' = max /\
  match inflate s with
  | Some data => if (mem && (zlen data <=? max))%bool
      then ZlibUncompress bits inflate mem (out ++ outRest) max (s ++ inRest) (zlen s) = Ok (Ok (zlen data), out' ++ outRest) /\ firstn (Z.to_nat (zlen data)) out' = data
      else ZlibUncompress bits inflate mem (out ++ outRest) max (s ++ inRest) (zlen s) = Ok (Exn, out' ++ outRest)
  | None => ZlibUncompress bits inflate mem (out ++ outRest) max (s ++ inRest) (zlen s) = Ok (Exn, out' ++ outRest)
  end.
Proof using.
  clear Hne Hinv deflate.
  intros mem out s inRest max Hd Hm Ho outRest. unfold ZlibUncompress. rewrite !Z.mod_small by (pose proof (zlen_nonneg s); lia). rewrite take_all. cbn [bind]. unfold uncompress.
  assert (forall d, zlen d <= max -> exists out', zlen out' = max /\ put (out ++ outRest) d = Ok (out' ++ outRest) /\ firstn (length d) out' = d) as P.
  { intros d Ld. exists (d ++ skipn (length d) out). split; [unfold zlen in *; rewrite app_length, skipn_length; lia|]. split.
    - rewrite put_ok by (rewrite zlen_app; pose proof (zlen_nonneg outRest); lia). rewrite skipn_app. replace (length d - length out)%nat with 0%nat by (unfold zlen in *; lia). rewrite <- app_assoc. reflexivity.
    - rewrite firstn_app, Nat.sub_diag, firstn_all. cbn. apply app_nil_r. }
  destruct (P [] ltac:(change (zlen (@nil Z)) with 0; lia)) as (o0 & L0 & E0 & _).
  destruct mem; cbn [negb andb].
  - destruct (inflate s) as [data|] eqn:E; [|rewrite E0; cbn [bind]; exists o0; auto]. destruct (Z.leb_spec (zlen data) max).
    + destruct (P data H) as (o1 & L1 & -> & F1). cbn [bind]. exists o1. split; auto. split; [reflexivity|]. unfold zlen. rewrite Nat2Z.id. auto.
    + destruct (P (firstn (Z.to_nat max) data)) as (o1 & L1 & -> & F1); [apply firstn_zlen; lia|]. cbn [bind]. exists o1. auto.
  - rewrite E0. cbn [bind]. exists o0. split; auto. destruct (inflate s) as [data|]; reflexivity.
Qed.
(** what ZlibCompress made, ZlibUncompress turns back, given a buffer of at least the size of the data *)
Theorem C114_round_trip : forall data level buf n out',
  zlen data < 2 ^ bits -> 0 <= zlen buf < 2 ^ bits -> ZlibCompress bits deflate true buf (zlen buf) data (zlen data) level = Ok (Ok n, out') -> n <> 0 ->
  forall buf2, zlen data <= zlen buf2 < 2 ^ bits -> exists out2, ZlibUncompress bits inflate true buf2 (zlen buf2) out' n = Ok (Ok (zlen data), out2) /\ firstn (Z.to_nat (zlen data)) out2 = data.
Proof using Hinv.
  clear Hne.
  intros data level buf n out' Hd Hb E N buf2 H2. destruct (C114_compress true buf data [] (zlen buf) level Hd Hb eq_refl []) as (o & Lo & Eo & Fo). rewrite !app_nil_r in Eo. rewrite Eo in E. clear Eo.
  destruct ((-1 <=? level) && (level <=? 9) && true)%bool eqn:El; [|discriminate]. rewrite andb_true_r in El. apply andb_true_iff in El. destruct El as [E1 E2]. apply Z.leb_le in E1, E2.
  destruct (Z.leb_spec (zlen (deflate level data)) (zlen buf)) as [Hl|Hl]; [|exfalso; congruence]. injection E as <- <-. specialize (Fo (conj E1 E2) eq_refl Hl).
  assert (o = deflate level data ++ skipn (Z.to_nat (zlen (deflate level data))) o) as Eo by (rewrite <- Fo at 1; symmetry; apply firstn_skipn).
  destruct (C114_uncompress true buf2 (deflate level data) (skipn (Z.to_nat (zlen (deflate level data))) o) (zlen buf2) ltac:(lia) ltac:(pose proof (zlen_nonneg data); lia) eq_refl []) as (o2 & L2 & E2'). rewrite Hinv in E2'. cbn [andb] in E2'. destruct (Z.leb_spec (zlen data) (zlen buf2)); [|lia]. rewrite <- Eo, !app_nil_r in E2'. destruct E2' as [E3 E4]. exists o2. auto.
Qed.

(** ** the sample *)
Variables (mem : bool) (can : list Z -> bool).
Hypothesis Hmem : mem = true.
Notation smpl := (fun d => zlib_smpl bits deflate inflate mem d).
(** zlib_smpl in out, then zlib_smpl -d out back: a file whose stream would be longer than itself is refused with status 1 and nothing is
    written.  Otherwise out is written, and the second call gives the file back if it is at most ten times as long as out, else it ends
    with status 1 and writes nothing *)
Theorem C114_sample : forall fs f data o b, fs f = Some data -> zlen data * 10 < 2 ^ bits -> can o = true -> can b = true ->
  let c := deflate Z_DEFAULT_COMPRESSION data in
  if zlen c <=? zlen data
  then smpl false fs can f o = Ok (0, store fs o c) /\
       smpl true (store fs o c) can o b = Ok (if zlen data <=? 10 * zlen c then (0, store (store fs o c) b data) else (1, store fs o c))
  else smpl false fs can f o = Ok (1, fs).
Proof using Hne Hinv Hmem.
  intros fs f data o b Ef Hs Co Cb. cbv zeta. set (c := deflate Z_DEFAULT_COMPRESSION data). pose proof (zlen_nonneg data) as L0. pose proof (nonempty Z_DEFAULT_COMPRESSION data) as Lc. fold c in Lc.
  assert (forall n, 0 <= n -> zlen (repeat 0 (Z.to_nat n)) = n) as Rp by (intros; unfold zlen; rewrite repeat_length; lia).
  cbv beta. unfold zlib_smpl at 1. unfold zlib_smpl at 2. rewrite Ef. rewrite Hmem.
  destruct (C114_compress true (repeat 0 (Z.to_nat (zlen data))) data [] (zlen data) Z_DEFAULT_COMPRESSION ltac:(lia) ltac:(lia) ltac:(apply Rp; lia) []) as (o1 & L1 & E1 & F1). rewrite !app_nil_r in E1. rewrite E1. cbn [bind]. fold c. fold c in F1. change ((-1 <=? Z_DEFAULT_COMPRESSION) && (Z_DEFAULT_COMPRESSION <=? 9) && true)%bool with true. cbn match.
  destruct (Z.leb_spec (zlen c) (zlen data)) as [Hl|Hl].
  - cbn [negb andb]. destruct (Z.eqb_spec (zlen c) 0); [lia|]. rewrite Co, F1 by (auto; unfold Z_DEFAULT_COMPRESSION; lia). split; [reflexivity|].
    unfold zlib_smpl. unfold store at 1. destruct (list_eq_dec Z.eq_dec o o); [|congruence].
    destruct (C114_uncompress true (repeat 0 (Z.to_nat (zlen c * 10))) c [] (zlen c * 10) ltac:(lia) ltac:(lia) ltac:(apply Rp; lia) []) as (o2 & L2 & E2). rewrite !app_nil_r in E2. unfold c in E2 at 1. rewrite Hinv in E2. cbn [andb] in E2. rewrite (Z.mul_comm 10).
    destruct (Z.leb_spec (zlen data) (zlen c * 10)).
    + destruct E2 as [-> F2]. cbn [bind negb andb]. rewrite Cb, F2. reflexivity.
    + rewrite E2. cbn [bind]. reflexivity.
  - cbn [negb andb]. reflexivity.
Qed.

(** a bad call: no input file, no stream, no memory: status 1 and no file changes *)
Theorem C114_sample_bad : forall fs f o d, (fs f = None \/ (d = true /\ exists s, fs f = Some s /\ inflate s = None /\ zlen s * 10 < 2 ^ bits)) -> smpl d fs can f o = Ok (1, fs).
Proof using Hmem.
  clear Hne Hinv.
  intros fs f o d [E | (-> & s & E & I & Hs)]; cbv beta; unfold zlib_smpl; rewrite E; [reflexivity|]. rewrite Hmem. pose proof (zlen_nonneg s).
  destruct (C114_uncompress true (repeat 0 (Z.to_nat (zlen s * 10))) s [] (zlen s * 10) ltac:(lia) ltac:(lia) ltac:(unfold zlen at 1; rewrite repeat_length; lia) []) as (o2 & L2 & E2). rewrite !app_nil_r in E2. rewrite I in E2. rewrite E2. reflexivity.
Qed.
(** ** Finding: zlib_smpl does not look whether the output file was opened
    The stream is written to an ofstream without a check, so with an output file that cannot be opened the command ends with status 0 and
    has written nothing. *)
Theorem C114_unopened_finding : forall fs f data o, fs f = Some data -> zlen data < 2 ^ bits -> can o = false ->
  zlen (deflate Z_DEFAULT_COMPRESSION data) <= zlen data -> smpl false fs can f o = Ok (0, fs).
Proof using Hne Hmem.
  clear Hinv.
  intros fs f data o E Hs C Hl. cbv beta. unfold zlib_smpl. rewrite E, Hmem. pose proof (zlen_nonneg data). pose proof (nonempty Z_DEFAULT_COMPRESSION data).
  destruct (C114_compress true (repeat 0 (Z.to_nat (zlen data))) data [] (zlen data) Z_DEFAULT_COMPRESSION ltac:(lia) ltac:(lia) ltac:(unfold zlen at 1; rewrite repeat_length; lia) []) as (o1 & L1 & E1 & F1). rewrite !app_nil_r in E1. rewrite E1. cbn [bind]. change ((-1 <=? Z_DEFAULT_COMPRESSION) && (Z_DEFAULT_COMPRESSION <=? 9) && true)%bool with true. cbn match.
  destruct (Z.leb_spec (zlen (deflate Z_DEFAULT_COMPRESSION data)) (zlen data)); [|lia]. cbn [negb andb]. destruct (Z.eqb_spec (zlen (deflate Z_DEFAULT_COMPRESSION data)) 0); [lia|]. rewrite C. reflexivity.
Qed.
End Zlib.

(** ** Finding: where uLong has 32 bits, ZlibCompress drops 4 GiB without an error
    inSize is cast to uLong, which has 32 bits on 64-bit Windows.  Of first ++ rest, rest of 2^32 bytes, only first is compressed; the call
    returns a length as if all were well, and what is uncompressed is first. *)
Theorem C114_ulong_finding : forall deflate inflate, (forall level d, deflate level d <> []) -> (forall level d, inflate (deflate level d) = Some d) ->
  forall first rest level buf, zlen rest = 2 ^ 32 -> zlen buf < 2 ^ 32 -> zlen first < 2 ^ 32 -> -1 <= level <= 9 -> zlen (deflate level first) <= zlen buf ->
  exists n out, n <> 0 /\ ZlibCompress 32 deflate true buf (zlen buf) (first ++ rest) (zlen (first ++ rest)) level = Ok (Ok n, out) /\
  forall buf2, zlen first <= zlen buf2 < 2 ^ 32 -> exists out2, ZlibUncompress 32 inflate true buf2 (zlen buf2) out n = Ok (Ok (zlen first), out2) /\ firstn (Z.to_nat (zlen first)) out2 = first.
Proof.
  intros deflate inflate Hne Hinv first rest level buf Lr Lb Lf Hl Hc. pose proof (zlen_nonneg first). pose proof (zlen_nonneg buf).
  assert (ZlibCompress 32 deflate true buf (zlen buf) (first ++ rest) (zlen (first ++ rest)) level = ZlibCompress 32 deflate true buf (zlen buf) first (zlen first) level) as E.
  { unfold ZlibCompress. rewrite zlen_app, Lr. replace ((zlen first + 2 ^ 32) mod 2 ^ 32) with (zlen first) by (rewrite <- (Z.mul_1_l (2 ^ 32)) at 1; rewrite Z.mod_add by lia; rewrite Z.mod_small by lia; auto). rewrite (Z.mod_small (zlen first)) by lia. rewrite take_all. pose proof (take_all first []) as T. rewrite app_nil_r in T. rewrite T. reflexivity. }
  destruct (C114_compress 32 deflate true buf first [] (zlen buf) level ltac:(lia) ltac:(lia) eq_refl []) as (o & Lo & Eo & Fo). rewrite !app_nil_r in Eo.
  replace ((-1 <=? level) && (level <=? 9) && true)%bool with true in Eo by (destruct (Z.leb_spec (-1) level), (Z.leb_spec level 9); auto; lia). destruct (Z.leb_spec (zlen (deflate level first)) (zlen buf)); [|lia].
  exists (zlen (deflate level first)), o. split; [apply (C114_zero_is_no_length deflate Hne)|]. split; [rewrite E; exact Eo|].
  apply (C114_round_trip 32 deflate inflate Hinv first level buf); auto; try lia. apply (C114_zero_is_no_length deflate Hne).
Qed.

(** ** the hypotheses are met: a coder that has one byte for a hundred sevens and a byte in front of all else *)
Definition toy_deflate (_ : Z) (d : list Z) : list Z := if list_eq_dec Z.eq_dec d (repeat 7 100) then [1] else if list_eq_dec Z.eq_dec d (repeat 7 9) then [2] else 0 :: d.
Definition toy_inflate (s : list Z) : option (list Z) := match s with [1] => Some (repeat 7 100) | [2] => Some (repeat 7 9) | 0 :: d => Some d | _ => None end.
Lemma toy_ne : forall level d, toy_deflate level d <> [].
Proof. intros level d. unfold toy_deflate. repeat (destruct (list_eq_dec _ _ _)); discriminate. Qed.
Lemma toy_inv : forall level d, toy_inflate (toy_deflate level d) = Some d.
Proof. intros level d. unfold toy_deflate. repeat (destruct (list_eq_dec _ _ _)); subst; reflexivity. Qed.
Definition one_file (d : list Z) : files := store (fun _ => None) [97] d.
Notation toy := (zlib_smpl 64 toy_deflate toy_inflate true).
Notation yes := (fun _ : list Z => true).
(** nine sevens come back; a hundred are written to a file that cannot be read; three bytes are refused *)
Example smpl_back : toy false (one_file (repeat 7 9)) yes [97] [98] = Ok (0, store (one_file (repeat 7 9)) [98] [2]) /\
  toy true (store (one_file (repeat 7 9)) [98] [2]) yes [98] [99] = Ok (0, store (store (one_file (repeat 7 9)) [98] [2]) [99] (repeat 7 9)).
Proof. exact (C114_sample 64 toy_deflate toy_inflate toy_ne toy_inv true yes eq_refl (one_file (repeat 7 9)) [97] (repeat 7 9) [98] [99] eq_refl eq_refl eq_refl eq_refl). Qed.
(** ** Finding: zlib_smpl -d cannot read back what zlib_smpl wrote of a file that compresses by more than ten
    The buffer of -d has ten times the size of the stream.  zlib reaches a thousand, so a file of zeros is compressed with status 0, and
    -d of the result is an exception, status 1.  Below with a coder that makes one byte of a hundred. *)
Theorem C114_ten_finding : toy false (one_file (repeat 7 100)) yes [97] [98] = Ok (0, store (one_file (repeat 7 100)) [98] [1]) /\
  toy true (store (one_file (repeat 7 100)) [98] [1]) yes [98] [99] = Ok (1, store (one_file (repeat 7 100)) [98] [1]).
Proof. exact (C114_sample 64 toy_deflate toy_inflate toy_ne toy_inv true yes eq_refl (one_file (repeat 7 100)) [97] (repeat 7 100) [98] [99] eq_refl eq_refl eq_refl eq_refl). Qed.
Example smpl_refused : toy false (one_file [1; 2; 3]) yes [97] [98] = Ok (1, one_file [1; 2; 3]).
Proof. exact (C114_sample 64 toy_deflate toy_inflate toy_ne toy_inv true yes eq_refl (one_file [1; 2; 3]) [97] [1; 2; 3] [98] [99] eq_refl eq_refl eq_refl eq_refl). Qed.
Example smpl_bad : toy true (one_file [9]) yes [97] [98] = Ok (1, one_file [9]) /\ toy false (one_file [9]) yes [98] [97] = Ok (1, one_file [9]).
Proof. split; [apply (C114_sample_bad 64 toy_deflate toy_inflate true yes eq_refl); right; split; auto; exists [9]; repeat split | apply (C114_sample_bad 64 toy_deflate toy_inflate true yes eq_refl); left; reflexivity]. Qed.
Example buf_trip : ZlibCompress 64 toy_deflate true [5; 5; 5; 5; 5] 5 [1; 2; 3] 3 6 = Ok (Ok 4, [0; 1; 2; 3; 5]) /\ ZlibCompress 64 toy_deflate true [5; 5; 5] 3 [1; 2; 3] 3 6 = Ok (Ok 0, [0; 1; 2]) /\
  ZlibUncompress 64 toy_inflate true [5; 5; 5; 5] 4 [0; 1; 2; 3; 5] 4 = Ok (Ok 3, [1; 2; 3; 5]) /\ ZlibUncompress 64 toy_inflate true [5; 5; 5; 5] 2 [0; 1; 2; 3; 5] 4 = Ok (Exn, [1; 2; 5; 5]).
Proof. repeat split; reflexivity. Qed.

Print Assumptions C114_compress.
Print Assumptions C114_uncompress.
Print Assumptions C114_round_trip.
Print Assumptions C114_sample.
Print Assumptions C114_sample_bad.
Print Assumptions C114_unopened_finding.
Print Assumptions C114_ulong_finding.
