(** C123: the random generator hands out the device's bytes in order and each at most once, or throws; a shuffle that is stopped by such an
    exception still leaves a permutation. *)
Require Import Verif.Common Verif.EndianModel Verif.EndianProps Verif.RandModel Verif.RandProps Verif.RandDevModel.
Require Import Permutation.
Ltac Zify.zify_post_hook ::= idtac.

(** ** Specification *)
(** how many bytes a call asks for *)
Definition asks (o : op) : nat := match o with Get32 => 4 | Get64 => 8 | Fill _ _ buf => length buf end.
(** the call concerns less than 2 GiB and is given a buffer of the size it states *)
Definition proper (o : op) : Prop := match o with Fill sz n buf => 0 <= sz /\ 0 <= n /\ zlen buf = sz * n /\ zlen buf < 2 ^ 31 | _ => True end.
(** the number whose bytes in memory are b *)
Definition number (little : bool) (b : list Z) : Z := if little then le_value b else be_value b.
(** the answer to a call for which the device gave exactly the bytes [part] *)
Definition answers (little : bool) (o : op) (part : list Z) (r : reply) : Prop :=
  (length part <= asks o)%nat /\
  if (length part =? asks o)%nat
  then r = match o with Fill _ _ _ => Buffer part | _ => Value (number little part) end
  else r = Thrown match o with Fill _ _ buf => part ++ skipn (length part) buf | _ => [] end.
(** the 8-byte numbers in a string of bytes *)
Fixpoint numbers (little : bool) (k : nat) (b : list Z) : list Z :=
  match k with O => [] | S k => number little (firstn 8 b) :: numbers little k (skipn 8 b) end.
Definition total (os : list op) : nat := list_sum (map asks os).

(** ** Proofs *)
Lemma object_number little b : object_value little b = number little b.
Proof. unfold object_value, number. rewrite of_le_value. destruct little; auto. symmetry. apply be_le. Qed.

(** what one fread hands over *)
Definition piece (k : nat) (d : dev) : list Z := firstn k (deliverable d).
Lemma deliverable_prefix d : exists t, d_rest d = deliverable d ++ t.
Proof. unfold deliverable. destruct (d_lim d) as [|k l]; [exists []; rewrite app_nil_r; auto|]. exists (skipn k (d_rest d)). rewrite firstn_skipn. auto. Qed.
Lemma piece_rest k d : d_rest d = piece k d ++ skipn (length (piece k d)) (d_rest d).
Proof.
  assert (E: exists t, d_rest d = piece k d ++ t).
  { destruct (deliverable_prefix d) as (t & E). exists (skipn k (deliverable d) ++ t). unfold piece. rewrite app_assoc, firstn_skipn. auto. }
  destruct E as (t & E). rewrite E. rewrite skipn_app, Nat.sub_diag, skipn_all. auto.
Qed.
Lemma read_piece sz n buf d : zlen buf = sz * n -> zlen buf < 2 ^ 31 ->
  let p := piece (length buf) d in
  rgd_read sz n buf d = Ok ((length p =? length buf)%nat, p ++ skipn (length p) buf, Dev (skipn (length p) (d_rest d)) (tl (d_lim d))).
Proof.
  intros E H p. unfold rgd_read. rewrite <- E. pose proof (zlen_nonneg buf). rewrite Z.mod_small by lia.
  destruct (C63_read (deliverable d) buf H) as [-> _]. cbn [bind].
  assert (L: length p = Nat.min (length buf) (length (deliverable d))) by (unfold p, piece; rewrite firstn_length; auto).
  assert (Eb: (zlen buf <=? zlen (deliverable d)) = (length p =? length buf)%nat).
  { rewrite L. unfold zlen. destruct (Z.leb_spec (Z.of_nat (length buf)) (Z.of_nat (length (deliverable d)))), (Nat.eqb_spec (Nat.min (length buf) (length (deliverable d))) (length buf)); auto; lia. }
  rewrite Eb. f_equal. f_equal; [f_equal|].
  - unfold p at 1, piece. f_equal. destruct (Nat.le_ge_cases (length buf) (length (deliverable d))).
    + rewrite !skipn_all2; auto; lia.
    + rewrite L, Nat.min_r; auto.
  - f_equal. f_equal. unfold int_to_size. rewrite Z.mod_small by lia. cbv zeta. destruct (Z.ltb_spec (zlen buf) (2 ^ 31)); [|lia].
    rewrite L. unfold zlen. lia.
Qed.
Lemma get_piece little k garbage d : zlen garbage = k -> k < 2 ^ 31 ->
  let p := piece (length garbage) d in
  rgd_get little k garbage d = Ok (if (length p =? length garbage)%nat then Some (number little p) else None, Dev (skipn (length p) (d_rest d)) (tl (d_lim d))).
Proof.
  intros E H p. unfold rgd_get. rewrite read_piece by lia. cbn [bind]. fold p. f_equal. f_equal.
  destruct (Nat.eqb_spec (length p) (length garbage)); auto. rewrite skipn_all2, app_nil_r by lia. rewrite object_number. auto.
Qed.
Lemma call_piece little garbage o d : length garbage = 8%nat -> proper o ->
  let p := piece (asks o) d in
  exists r, rgd_call little garbage o d = Ok (r, Dev (skipn (length p) (d_rest d)) (tl (d_lim d))) /\ answers little o p r.
Proof.
  intros G P p. assert (Lp: (length p <= asks o)%nat) by (unfold p, piece; rewrite firstn_length; lia).
  unfold answers. destruct o as [| |sz n buf]; cbn [asks proper rgd_call] in *.
  - unfold rgd_get32. rewrite get_piece by (unfold zlen; rewrite ?firstn_length; lia). cbn [bind]. rewrite firstn_length, G. change (Nat.min 4 8) with 4%nat. fold p.
    eexists. split; [reflexivity|]. split; auto. destruct (Nat.eqb_spec (length p) 4); auto.
  - unfold rgd_get64. rewrite get_piece by (unfold zlen; lia). cbn [bind]. rewrite G. fold p.
    eexists. split; [reflexivity|]. split; auto. destruct (Nat.eqb_spec (length p) 8); auto.
  - destruct P as (_ & _ & E & H). rewrite read_piece by auto. fold p. cbn [bind]. eexists. split; [reflexivity|]. split; auto.
    destruct (Nat.eqb_spec (length p) (length buf)); auto. rewrite skipn_all2, app_nil_r by lia. auto.
Qed.

(** ** C123 *)
(** whatever the device does, the replies of any sequence of calls are explained by consecutive pieces of its bytes: no byte serves
    twice, none is skipped, and a call returns only if it got all its bytes *)
Theorem C123_history : forall little garbage os d, (forall i, length (garbage i) = 8%nat) -> Forall proper os ->
  exists rs d' parts, rgd_run little garbage os d = Ok (rs, d') /\
    d_rest d = concat parts ++ d_rest d' /\
    length rs = length os /\ length parts = length os /\
    (forall i o, nth_error os i = Some o -> exists part r, nth_error parts i = Some part /\ nth_error rs i = Some r /\ answers little o part r).
Proof.
  intros little garbage os. revert garbage. induction os as [|o os IH]; intros garbage d G P.
  - exists [], d, []. repeat split; auto. intros [|i] o Hi; discriminate.
  - apply Forall_cons_iff in P as [Po P]. destruct (call_piece little (garbage O) o d (G O) Po) as (r & E & A).
    set (p := piece (asks o) d) in *. set (d1 := Dev (skipn (length p) (d_rest d)) (tl (d_lim d))) in *.
    destruct (IH (fun i => garbage (S i)) d1 (fun i => G (S i)) P) as (rs & d' & parts & E' & R & L1 & L2 & N).
    exists (r :: rs), d', (p :: parts). cbn [rgd_run]. rewrite E. cbn [bind]. rewrite E'. cbn [bind].
    split; [reflexivity|]. split; [cbn [concat]; rewrite <- app_assoc, <- R; apply piece_rest|].
    split; [cbn [length]; lia|]. split; [cbn [length]; lia|].
    intros [|i] o' Hi; [injection Hi as <-; exists p, r; auto|]. apply N. auto.
Qed.
(** what happened to be on the stack is never seen *)
Theorem C123_uninitialised : forall little g g' os d, (forall i, length (g i) = 8%nat) -> (forall i, length (g' i) = 8%nat) -> Forall proper os ->
  rgd_run little g os d = rgd_run little g' os d.
Proof.
  intros little g g' os. revert g g'. induction os as [|o os IH]; intros g g' d G G' P; [reflexivity|].
  apply Forall_cons_iff in P as [Po P]. cbn [rgd_run].
  assert (E: rgd_call little (g O) o d = rgd_call little (g' O) o d).
  { destruct o; cbn [rgd_call]; auto; unfold rgd_get32, rgd_get64;
      rewrite !get_piece by (unfold zlen; try rewrite firstn_length; rewrite ?G, ?G'; cbn; lia);
      rewrite ?firstn_length, ?G, ?G'; auto. }
  rewrite E. destruct (rgd_call little (g' O) o d) as [[r d1]| | |]; auto. cbn [bind]. rewrite (IH _ (fun i => g' (S i))); auto.
Qed.
(** a device that has enough bytes and makes no error: no call throws *)
Theorem C123_reliable : forall little garbage os rest, (forall i, length (garbage i) = 8%nat) -> Forall proper os -> (total os <= length rest)%nat ->
  exists rs, rgd_run little garbage os (Dev rest []) = Ok (rs, Dev (skipn (total os) rest) []) /\
    Forall (fun r => match r with Thrown _ => False | _ => True end) rs.
Proof.
  intros little garbage os. revert garbage. induction os as [|o os IH]; intros garbage rest G P T.
  - exists []. split; auto.
  - apply Forall_cons_iff in P as [Po P]. change (total (o :: os)) with (asks o + total os)%nat in *.
    destruct (call_piece little (garbage O) o (Dev rest []) (G O) Po) as (r & E & A).
    assert (Lp: length (piece (asks o) (Dev rest [])) = asks o) by (unfold piece, deliverable; cbn [d_lim d_rest]; rewrite firstn_length; lia).
    rewrite Lp in E. cbn [d_rest d_lim tl] in E.
    destruct (IH (fun i => garbage (S i)) (skipn (asks o) rest) (fun i => G (S i)) P) as (rs & E' & F). { rewrite skipn_length. lia. }
    exists (r :: rs). cbn [rgd_run]. rewrite E. cbn [bind]. rewrite E'. cbn [bind]. split; [rewrite skipn_skipn; do 4 f_equal; lia|].
    constructor; auto. destruct A as [_ A]. rewrite Lp, Nat.eqb_refl in A. subst r. destruct o; auto.
Qed.
(** the third call gets 3 bytes before an error and throws; the next call goes on with the fourth: the example meets the hypotheses *)
Example C123_nonvacuous :
  rgd_run true (fun _ => [9; 9; 9; 9; 9; 9; 9; 9]) [Get32; Fill 2 1 [7; 7]; Get64; Get32; Get32] (Dev [1; 0; 0; 0; 2; 3; 4; 5; 6; 0; 1; 0; 0; 8; 8] [4; 9; 3]%nat) =
    Ok ([Value 1; Buffer [2; 3]; Thrown []; Value 256; Thrown []], Dev [] []) /\
  proper (Fill 2 1 [7; 7]) /\ total [Get32; Fill 2 1 [7; 7]; Get64] = 14%nat.
Proof. split; [vm_compute; reflexivity|]. split; [cbn; lia|reflexivity]. Qed.

(** *** shuffle on such a device *)
Lemma numbers_S little k b : numbers little (S k) b = number little (firstn 8 b) :: numbers little k (skipn 8 b).
Proof. reflexivity. Qed.
Lemma shuffle_dev_loop_spec {A} little : forall k garbage P (l : list A) d, (forall i, length (garbage i) = 8%nat) -> length l = S k ->
  exists ok l' d' used, shuffle_dev_loop little garbage k (zlen P) (zlen P + zlen l) (P ++ l) d = Ok (ok, P ++ l', d') /\
    Permutation l l' /\ d_rest d = used ++ d_rest d' /\
    (ok = true -> length used = (8 * k)%nat /\ shuffle_loop playback k (zlen P) (zlen P + zlen l) (P ++ l) (numbers little k used) = Ok (P ++ l', [])) /\
    (d_lim d = [] -> (8 * k <= length (d_rest d))%nat -> ok = true).
Proof.
  induction k as [|k IH]; intros garbage P l d G L.
  - exists true, l, d, []. repeat split; auto.
  - cbn [shuffle_dev_loop]. unfold rgd_get64. rewrite get_piece by (unfold zlen; rewrite ?G; lia). cbn [bind]. rewrite G.
    set (p := piece 8 d). pose proof (piece_rest 8 d) as R. fold p in R.
    assert (Lp: length p = Nat.min 8 (length (deliverable d))) by (unfold p, piece; rewrite firstn_length; auto).
    destruct (Nat.eqb_spec (length p) 8) as [E8|E8].
    + set (u := number little p).
      replace (zlen P + zlen l - zlen P) with (zlen l) by lia.
      assert (M: 0 <= u mod zlen l < zlen l) by (apply Z.mod_pos_bound; unfold zlen; lia).
      destruct (pick_some l (Z.to_nat (u mod zlen l))) as (y & t & _ & Hp & HL & _ & Hs). { unfold zlen in *. lia. }
      specialize (Hs P). rewrite Z2Nat.id in Hs by lia. rewrite Hs. cbn [bind].
      set (d1 := Dev (skipn (length p) (d_rest d)) (tl (d_lim d))) in *.
      destruct (IH (fun i => garbage (S i)) (P ++ [y]) t d1 (fun i => G (S i)) ltac:(lia)) as (ok & t' & d' & used & E & Q & R' & Ok1 & Ok2).
      rewrite zlen_app in E, Ok1. change (zlen [y]) with 1 in E, Ok1. rewrite <- !app_assoc in E, Ok1. cbn [app] in E, Ok1.
      assert (Z1: zlen P + zlen l = zlen P + 1 + zlen t) by (unfold zlen; lia). rewrite Z1, E.
      exists ok, (y :: t'), d', (p ++ used). split; [reflexivity|]. split; [rewrite Hp; auto|].
      split; [rewrite <- app_assoc, <- R'; exact R|]. split.
      * intros Ho. destruct (Ok1 Ho) as [Lu Eu]. split; [rewrite app_length; lia|].
        rewrite numbers_S, shuffle_loop_step. cbn [playback].
        rewrite firstn_app, E8, Nat.sub_diag, firstn_O, app_nil_r, firstn_all2 by lia.
        rewrite skipn_app, E8, Nat.sub_diag, skipn_O, skipn_all2 by lia. cbn [app].
        replace (zlen P + 1 + zlen t - zlen P) with (zlen l) by lia. fold u. rewrite Hs. cbn [bind]. exact Eu.
      * intros Hd Hr. apply Ok2; unfold d1; cbn [d_lim d_rest]; [rewrite Hd; auto|]. rewrite skipn_length. lia.
    + exists false, l, (Dev (skipn (length p) (d_rest d)) (tl (d_lim d))), p. split; [reflexivity|]. split; auto. split; [exact R|].
      split; [discriminate|]. intros Hd Hr. exfalso. apply E8. rewrite Lp. unfold deliverable. rewrite Hd. lia.
Qed.
(** a shuffle that draws from the device never leaves the array and always leaves a permutation of it, also when an exception stops it;
    when it returns it used 8(n-1) consecutive bytes of the device as its n-1 random numbers; and it returns if the device delivers *)
Theorem C123_shuffle : forall A little garbage (v : list A) d, (forall i, length (garbage i) = 8%nat) ->
  exists ok v' d' used, shuffle_dev little garbage v d = Ok (ok, v', d') /\
    Permutation v v' /\ d_rest d = used ++ d_rest d' /\
    (ok = true -> length used = (8 * (length v - 1))%nat /\ shuffle playback v (numbers little (length v - 1) used) = Ok (v', [])) /\
    (d_lim d = [] -> (8 * (length v - 1) <= length (d_rest d))%nat -> ok = true).
Proof.
  intros A little garbage v d G. unfold shuffle_dev, shuffle. destruct (Z.leb_spec (zlen v) 1) as [H|H].
  - exists true, v, d, []. assert (E: (length v - 1)%nat = O) by (unfold zlen in H; lia). rewrite E. repeat split; auto.
  - destruct (shuffle_dev_loop_spec little (Z.to_nat (zlen v - 1)) garbage [] v d G) as (ok & v' & d' & used & E & Q & R & O1 & O2). { unfold zlen in *. lia. }
    cbn [app] in *. change (zlen (@nil A)) with 0 in *. rewrite Z.add_0_l in *.
    replace (length v - 1)%nat with (Z.to_nat (zlen v - 1)) by (unfold zlen; lia).
    exists ok, v', d', used. auto.
Qed.
(** the second draw fails: one swap is done *)
Example C123_shuffle_nonvacuous : shuffle_dev true (fun _ => repeat 9 8) [10; 11; 12; 13] (Dev (repeat 3 40) [8; 5]%nat) = Ok (false, [13; 11; 12; 10], Dev (repeat 3 27) []) /\
  shuffle_dev true (fun _ => repeat 9 8) [10; 11; 12; 13] (Dev (repeat 3 40) []) = Ok (true, [13; 11; 10; 12], Dev (repeat 3 16) []).
Proof. split; vm_compute; reflexivity. Qed.

Print Assumptions C123_history.
Print Assumptions C123_uninitialised.
Print Assumptions C123_reliable.
Print Assumptions C123_shuffle.
