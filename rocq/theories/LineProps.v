(** LineStream: properties C15, C16. *)
Require Import Verif.Common Verif.StreamModel Verif.StreamProps Verif.StrOpModel Verif.StrOpProps Verif.LineModel Verif.Text.

(** ** Specification *)
Definition no_lf (l : list Z) : Prop := ~ In 10 l.
(** the text of a line: one CR before the line end removed *)
Definition chomp (l : list Z) : list Z :=
  match rev l with c :: r => if c =? 13 then rev r else l | [] => [] end.
(** data made of complete lines followed by an unterminated rest *)
Definition lines_text (ls : list (list Z)) (last : list Z) : list Z := concat (map (fun l => l ++ [10]) ls) ++ last.
(** outcomes of repeated calls *)
Fixpoint nexts (n : nat) (s : lstream) : list (res (option (list Z))) :=
  match n with O => [] | S n => let '(o, s') := ls_nextline s in o :: nexts n s' end.
Fixpoint after_nexts (n : nat) (s : lstream) : lstream :=
  match n with O => s | S n => after_nexts n (snd (ls_nextline s)) end.

(** ** Proofs *)
Lemma range_app a b c : range (a ++ b ++ c) (zlen a) (zlen b) = Ok b.
Proof.
  unfold range. rewrite !zlen_app. pose proof (zlen_nonneg a). pose proof (zlen_nonneg b). pose proof (zlen_nonneg c).
  destruct (_ || _) eqn:E; [lia|]. rewrite !to_nat_zlen, skipn_app_exact, firstn_app_exact. auto.
Qed.
Lemma range_spec s from n : 0 <= from -> 0 <= n -> from + n <= zlen s ->
  exists a b c, s = a ++ b ++ c /\ zlen a = from /\ zlen b = n /\ range s from n = Ok b.
Proof.
  intros H1 H2 H3. exists (firstn (Z.to_nat from) s), (firstn (Z.to_nat n) (skipn (Z.to_nat from) s)), (skipn (Z.to_nat n) (skipn (Z.to_nat from) s)).
  unfold zlen in *. rewrite !firstn_skipn. repeat split.
  - rewrite firstn_length. lia.
  - rewrite firstn_length, skipn_length. lia.
  - unfold range, zlen. destruct (_ || _) eqn:E; [lia|auto].
Qed.
Lemma store_app a b c d : zlen b = zlen d -> store (a ++ b ++ c) (zlen a) d = Ok (a ++ d ++ c).
Proof.
  intros E. unfold store. rewrite !zlen_app. pose proof (zlen_nonneg a). pose proof (zlen_nonneg b). pose proof (zlen_nonneg c).
  destruct (_ || _) eqn:E1; [lia|]. rewrite to_nat_zlen, firstn_app_exact. do 3 f_equal.
  rewrite <- E, <- zlen_app, to_nat_zlen, app_assoc, skipn_app_exact. auto.
Qed.
Lemma memchr_no s : no_lf s -> memchr_lf s = None.
Proof. induction s as [|c s IH]; intros H; auto. cbn [memchr_lf]. destruct (c =? 10) eqn:E; [exfalso; apply H; left; lia|]. rewrite IH; auto. intros C; apply H; right; auto. Qed.
Lemma memchr_app l t : no_lf l -> memchr_lf (l ++ 10 :: t) = Some (zlen l).
Proof.
  induction l as [|c l IH]; intros H; auto. cbn [memchr_lf app]. destruct (c =? 10) eqn:E; [exfalso; apply H; left; lia|].
  rewrite IH; [rewrite zlen_cons; f_equal; lia|]. intros C; apply H; right; auto.
Qed.
Lemma chomp_spec l : (exists r, l = r ++ [13] /\ chomp l = r) \/ ((forall r, l <> r ++ [13]) /\ chomp l = l).
Proof.
  unfold chomp. destruct l as [|c r] using rev_ind; [right; split; auto; intros r H; destruct r; discriminate|].
  rewrite rev_app_distr. cbn [rev app]. destruct (c =? 13) eqn:E.
  - left. exists r. rewrite rev_involutive. split; auto. f_equal. f_equal. lia.
  - right. split; auto. intros r' H. apply app_inj_tail in H. lia.
Qed.
Lemma chomp_len l : zlen l <= zlen (chomp l) + 1 /\ zlen (chomp l) <= zlen l.
Proof. destruct (chomp_spec l) as [(r & -> & ->)|[_ ->]]; [rewrite zlen_app; change (zlen [13]) with 1|]; lia. Qed.

(** window and remaining data *)
Definition linv (s : lstream) (w : list Z) : Prop :=
  exists a c, ls_buf s = a ++ w ++ c /\ zlen a = ls_next s /\ ls_bufSize s = ls_next s + zlen w /\
  zlen (ls_buf s) = 2 * ls_max s /\ ls_eof s = false.

Lemma readSome_len size is got is' : 0 <= size -> readSome size is = (got, is') -> zlen got <= size.
Proof.
  intros H0 R. apply (f_equal fst) in R. unfold readSome in R. cbn [fst] in R. rewrite <- R. pose proof (zlen_nonneg (is_data is)).
  unfold zlen in *. rewrite firstn_length. destruct (is_sched is); [|destruct (_ <=? 0) eqn:?]; lia.
Qed.
Lemma app_cmp {A} (l : list A) x t w d : l ++ x :: t = w ++ d ->
  (exists w2, w = l ++ x :: w2 /\ t = w2 ++ d) \/ (exists l2, l = w ++ l2 /\ d = l2 ++ x :: t).
Proof.
  revert w. induction l as [|y l IH]; intros [|z w] H; cbn in H.
  - right. exists []. auto.
  - left. injection H as -> ->. exists w. auto.
  - right. exists (y :: l). auto.
  - injection H as -> H. destruct (IH w H) as [(w2 & -> & ->)|(l2 & -> & ->)]; [left; exists w2|right; exists l2]; split; auto.
Qed.


Lemma loop_no_lf f s w : linv s w -> no_lf w ->
  exists s1 got is', readSome (2 * ls_max s - zlen w) (ls_is s) = (got, is') /\
   (got = [] -> ls_eof s1 = true /\ (ls_max s1 = ls_max s /\ zlen (ls_buf s1) = 2 * ls_max s /\ ls_next s1 = 0 /\ ls_bufSize s1 = zlen w) /\
      next_loop (S f) s = (if zlen w =? 0 then Ok None else if ls_max s <? zlen w then Exn else Ok (Some w), s1)) /\
   (got <> [] -> linv s1 (w ++ got) /\ ls_is s1 = is' /\ ls_max s1 = ls_max s /\ next_loop (S f) s = next_loop f s1).
Proof.
  intros (a & c & Hb & Ha & Hs & Hz & He) NL. pose proof (zlen_nonneg w). pose proof (zlen_nonneg a). pose proof (zlen_nonneg c).
  rewrite Hb, !zlen_app in Hz.
  (* the buffer after moving the window down *)
  assert (FETCH: exists c', zlen c' = 2 * ls_max s - zlen w /\ next_loop (S f) s =
    (let s := mk_ls (ls_is s) (ls_max s) (w ++ c') (zlen w) 0 false in
      let buf := ls_buf s in
      let '(got, is') := readSome (zlen buf - ls_bufSize s) (ls_is s) in
      match store buf (ls_bufSize s) got with
      | Ok buf =>
        if zlen got =? 0 then
          let s := mk_ls is' (ls_max s) buf (ls_bufSize s) 0 true in
          if ls_bufSize s =? 0 then (Ok None, s) else
          if ls_max s <? ls_bufSize s then (Exn, s) else
          match range buf 0 (ls_bufSize s) with
          | Ok line => if verifySize (ls_max s) line then (Ok (Some line), s) else (Exn, s)
          | _ => (UB, s)
          end
        else next_loop f (mk_ls is' (ls_max s) buf (ls_bufSize s + zlen got) 0 false)
      | _ => (UB, s)
      end)).
  { cbn [next_loop]. replace (ls_bufSize s - ls_next s) with (zlen w) by lia. destruct (0 <? zlen w) eqn:Ew.
    - rewrite Hb, <- Ha, range_app. rewrite memchr_no by auto.
      destruct (copy_down_spec (fun _ => true) w [] a c) as (R' & C). cbn [app] in C. rewrite zlen_nil in C. cbn [Z.add] in C.
      rewrite to_nat_zlen, C, He. exists R'.
      assert (L: zlen (w ++ R') = zlen (a ++ w ++ c)).
      { clear -C. revert C. generalize (a ++ w ++ c). generalize (length w) 0 (zlen a). induction n; intros x y l E; cbn [copy_down] in E.
        - injection E as <-. auto.
        - destruct (rd l y); try discriminate. cbn [bind] in E. unfold wr in E. destruct (_ || _); [discriminate|]. cbn [bind] in E. apply IHn in E. unfold zlen in *. rewrite upd_length in E. auto. }
      split; [rewrite !zlen_app in L; lia|]. reflexivity.
    - assert (w = []) by (destruct w; auto; rewrite zlen_cons in Ew; pose proof (zlen_nonneg w); lia). subst w.
      exists (a ++ c). rewrite zlen_nil in *. split; [rewrite zlen_app; lia|]. cbn [app] in *. rewrite Hb, He. reflexivity. }
  destruct FETCH as (c' & Hc & ->). cbn zeta. cbn [ls_buf ls_bufSize ls_is ls_max]. rewrite zlen_app. replace (zlen w + zlen c' - zlen w) with (2 * ls_max s - zlen w) by lia.
  destruct (readSome (2 * ls_max s - zlen w) (ls_is s)) as [got is'] eqn:R.
  assert (Lg: zlen got <= zlen c').
  { rewrite Hc. eapply readSome_len; [|exact R]. pose proof (zlen_nonneg c'). lia. }
  assert (Ec: c' = firstn (length got) c' ++ skipn (length got) c') by (rewrite firstn_skipn; auto).
  rewrite Ec. rewrite store_app by (unfold zlen in *; rewrite firstn_length; lia).
  destruct got as [|g got].
  - change (zlen (@nil Z) =? 0) with true. cbn iota.
    exists (mk_ls is' (ls_max s) (w ++ [] ++ skipn (length (@nil Z)) c') (zlen w) 0 true), [], is'. split; auto. split; [|congruence]. intros _. cbn [ls_eof ls_is ls_max ls_buf ls_next ls_bufSize]. split; auto. split; [repeat split; auto; cbn [app length skipn]; rewrite zlen_app; lia|].
    cbn [ls_bufSize ls_max]. destruct (zlen w =? 0); auto. destruct (ls_max s <? zlen w) eqn:E; auto.
    pose proof (range_app [] w ([] ++ skipn (length (@nil Z)) c')) as RA. cbn [app] in RA. rewrite zlen_nil in RA. cbn [app]. rewrite RA. unfold verifySize. rewrite E. auto.
  - assert (zlen (g :: got) =? 0 = false) as -> by (rewrite zlen_cons; pose proof (zlen_nonneg got); lia).
    eexists (mk_ls is' (ls_max s) (w ++ (g :: got) ++ skipn (length (g :: got)) c') (zlen w + zlen (g :: got)) 0 false), (g :: got), is'. split; auto. split; [congruence|]. intros _.
    split; [|auto]. exists [], (skipn (length (g :: got)) c'). cbn [ls_buf ls_next ls_bufSize ls_max ls_eof]. rewrite app_assoc. repeat split; auto.
    + rewrite zlen_app. lia.
    + rewrite zlen_app, zlen_app. rewrite Ec in Hc. rewrite zlen_app in Hc. unfold zlen in *. rewrite firstn_length in Hc. rewrite skipn_length in *. lia.
Qed.
Lemma loop_lf f s l w2 : linv s (l ++ 10 :: w2) -> no_lf l -> exists s',
  next_loop (S f) s = (if zlen (chomp l) <=? ls_max s then (Ok (Some (chomp l)), s') else (Exn, s)) /\ linv s' w2 /\ ls_is s' = ls_is s /\ ls_max s' = ls_max s.
Proof.
  intros (a & c & Hb & Ha & Hs & Hz & He) NL. pose proof (zlen_nonneg l). pose proof (zlen_nonneg w2). pose proof (zlen_nonneg a).
  exists (mk_ls (ls_is s) (ls_max s) (ls_buf s) (ls_bufSize s) (ls_next s + zlen l + 1) (ls_eof s)).
  split; [|split; [|split; auto]].
  - cbn [next_loop]. replace (ls_bufSize s - ls_next s) with (zlen (l ++ 10 :: w2)) by lia. rewrite zlen_app, zlen_cons. destruct (0 <? _) eqn:E0; [|lia].
    pose proof (range_app a (l ++ 10 :: w2) c) as RA. rewrite <- Hb, Ha, zlen_app, zlen_cons in RA. rewrite RA. rewrite memchr_app by auto.
    destruct (chomp_spec l) as [(r & -> & ->)|[N ->]].
    + rewrite zlen_app in *. change (zlen [13]) with 1 in *. pose proof (zlen_nonneg r).
      destruct (ls_next s <? ls_next s + (zlen r + 1)) eqn:E1; [|lia].
      assert (rd (ls_buf s) (ls_next s + (zlen r + 1) - 1) = Ok 13) as ->.
      { rewrite Hb. replace (a ++ ((r ++ [13]) ++ 10 :: w2) ++ c) with ((a ++ r) ++ 13 :: (10 :: w2) ++ c) by (rewrite <- ?app_assoc; cbn [app]; rewrite <- ?app_assoc; auto).
        apply rd_app_exact'. rewrite zlen_app; lia. }
      cbn [andb Z.eqb Pos.eqb].
      replace (ls_next s + (zlen r + 1) - 1 - ls_next s) with (zlen r) by lia.
      assert (range (ls_buf s) (ls_next s) (zlen r) = Ok r) as ->.
      { rewrite Hb, <- Ha, <- !app_assoc. apply range_app. }
      unfold verifySize. rewrite <- Z.leb_antisym. rewrite Z.add_assoc. auto.
    + assert (L: exists x, (if ls_next s <? ls_next s + zlen l then rd (ls_buf s) (ls_next s + zlen l - 1) else Ok 0) = Ok x /\ (ls_next s <? ls_next s + zlen l) && (x =? 13) = false).
      { destruct (ls_next s <? ls_next s + zlen l) eqn:E1; [|exists 0; auto]. destruct l as [|x r _] using rev_ind; [rewrite zlen_nil in *; lia|].
        exists x. rewrite zlen_app in *. change (zlen [x]) with 1 in *. rewrite Hb. replace (a ++ ((r ++ [x]) ++ 10 :: w2) ++ c) with ((a ++ r) ++ x :: (10 :: w2) ++ c) by (rewrite <- ?app_assoc; cbn [app]; rewrite <- ?app_assoc; auto).
        rewrite rd_app_exact' by (rewrite zlen_app; lia). split; auto. destruct (x =? 13) eqn:Ex; auto. exfalso. apply (N r). f_equal. f_equal. lia. }
      destruct L as (x & -> & ->). replace (ls_next s + zlen l - ls_next s) with (zlen l) by lia.
      assert (range (ls_buf s) (ls_next s) (zlen l) = Ok l) as ->.
      { rewrite Hb, <- Ha, <- app_assoc. apply range_app. }
      unfold verifySize. rewrite <- Z.leb_antisym. auto.
  - exists (a ++ l ++ [10]), c. cbn [ls_buf ls_next ls_bufSize ls_max ls_eof]. repeat split; auto.
    + rewrite Hb, <- !app_assoc. cbn [app]. auto.
    + rewrite !zlen_app. change (zlen [10]) with 1. lia.
    + rewrite Hs, zlen_app, zlen_cons. lia.
Qed.
Lemma readSome_split size is got is' : 0 < size -> readSome size is = (got, is') -> is_data is = got ++ is_data is' /\ (is_data is <> [] -> got <> []).
Proof.
  intros Hs R. destruct (readSome_spec size is Hs) as (n & E & N1 & N2 & N3). rewrite E in R. injection R as <- <-. cbn [is_data]. rewrite firstn_skipn.
  split; auto. intros NE C. specialize (N3 NE). apply (f_equal (@length Z)) in C. rewrite firstn_length in C. cbn in C. lia.
Qed.
Lemma readSome_zero is got is' : readSome 0 is = (got, is') -> got = [].
Proof. unfold readSome. pose proof (zlen_nonneg (is_data is)). rewrite Z.min_l by lia. destruct (is_sched is); intros H0; apply (f_equal fst) in H0; cbn [fst] in H0; rewrite <- H0; reflexivity. Qed.

Definition lrel (s : lstream) (max : Z) (rem : list Z) : Prop := exists w, linv s w /\ ls_max s = max /\ w ++ is_data (ls_is s) = rem.

Lemma no_lf_app a b : no_lf (a ++ b) <-> no_lf a /\ no_lf b.
Proof. unfold no_lf. rewrite in_app_iff. tauto. Qed.

Lemma loop_line max l t : 2 <= max -> no_lf l -> forall f s, lrel s max (l ++ 10 :: t) -> (length (is_data (ls_is s)) < f)%nat ->
  exists s', next_loop f s = (if zlen (chomp l) <=? max then Ok (Some (chomp l)) else Exn, s') /\
    (zlen (chomp l) <= max -> lrel s' max t).
Proof.
  intros HM NL. induction f; intros s (w & I & Hm & Hr) Hf; [lia|].
  symmetry in Hr. destruct (app_cmp _ _ _ _ _ Hr) as [(w2 & -> & ->)|(l2 & -> & Hd)].
  - destruct (loop_lf f s l w2 I NL) as (s' & E & I' & Hi & Hm'). rewrite E, Hm. destruct (zlen (chomp l) <=? max) eqn:Ec.
    + exists s'. split; auto. intros _. exists w2. rewrite Hi. repeat split; auto. lia.
    + exists s. split; auto. lia.
  - apply no_lf_app in NL. destruct NL as [NL1 NL2]. destruct (loop_no_lf f s w I NL1) as (s1 & got & is' & R & G1 & G2).
    pose proof (chomp_len (w ++ l2)) as (C1 & _). rewrite zlen_app in C1. pose proof (zlen_nonneg w). pose proof (zlen_nonneg l2).
    rewrite Hm in *. destruct (Z_le_gt_dec (2 * max) (zlen w)).
    + (* the buffer is full *)
      assert (zlen w = 2 * max). { destruct I as (a & c & Hb & Ha & Hs & Hz & _). rewrite Hb, !zlen_app in Hz. pose proof (zlen_nonneg a). pose proof (zlen_nonneg c). lia. }
      replace (2 * max - zlen w) with 0 in R by lia. apply readSome_zero in R. destruct (G1 R) as (_ & _ & E). rewrite E.
      destruct (zlen w =? 0) eqn:E0; [lia|]. destruct (max <? zlen w) eqn:E1; [|lia]. destruct (zlen (chomp (w ++ l2)) <=? max) eqn:E2; [lia|]. exists s1. split; auto. lia.
    + apply readSome_split in R; [|lia]. destruct R as (R & NE). assert (got <> []) as NG by (apply NE; rewrite Hd; destruct l2; discriminate).
      destruct (G2 NG) as (I1 & Hi & Hm1 & E). rewrite E. apply IHf.
      * exists (w ++ got). rewrite Hm1, Hi. split; auto. split; auto. rewrite <- app_assoc, <- R, Hd, app_assoc. auto.
      * rewrite Hi. rewrite R, app_length in Hf. destruct got; [congruence|]. cbn [length] in Hf. lia.
Qed.
Lemma loop_last max l : 1 <= max -> no_lf l -> forall f s, lrel s max l -> (length (is_data (ls_is s)) < f)%nat ->
  exists s', next_loop f s = (match l with [] => Ok None | _ => if zlen l <=? max then Ok (Some l) else Exn end, s') /\ ls_eof s' = true.
Proof.
  intros HM NL. induction f; intros s (w & I & Hm & Hr) Hf; [lia|].
  rewrite <- Hr in NL. apply no_lf_app in NL. destruct NL as [NL1 NL2]. destruct (loop_no_lf f s w I NL1) as (s1 & got & is' & R & G1 & G2). rewrite Hm in *.
  assert (Lw: zlen l = zlen w + zlen (is_data (ls_is s))) by (rewrite <- Hr, zlen_app; auto). pose proof (zlen_nonneg w). pose proof (zlen_nonneg (is_data (ls_is s))).
  destruct (Z_le_gt_dec (2 * max) (zlen w)).
  - assert (zlen w = 2 * max). { destruct I as (a & c & Hb & Ha & Hs & Hz & _). rewrite Hb, !zlen_app in Hz. pose proof (zlen_nonneg a). pose proof (zlen_nonneg c). lia. }
    replace (2 * max - zlen w) with 0 in R by lia. apply readSome_zero in R. destruct (G1 R) as (E1 & _ & E). rewrite E. exists s1. split; auto. f_equal.
    destruct (zlen w =? 0) eqn:E0; [lia|]. destruct (max <? zlen w) eqn:E2; [|lia]. destruct (zlen l <=? max) eqn:E3; [lia|]. destruct l; [rewrite zlen_nil in *; lia|auto].
  - apply readSome_split in R; [|lia]. destruct R as (R & NE). destruct (is_data (ls_is s)) as [|x d] eqn:Ed.
    + assert (got = []) as NG by (destruct got; auto; discriminate). destruct (G1 NG) as (E1 & _ & E). rewrite E. exists s1. split; auto. rewrite app_nil_r in Hr. subst l. f_equal.
      destruct w as [|y w]; auto. destruct (zlen (y :: w) =? 0) eqn:E0; [rewrite zlen_cons in *; pose proof (zlen_nonneg w); lia|].
      destruct (max <? _) eqn:E2, (_ <=? max) eqn:E3; auto; lia.
    + assert (got <> []) as NG by (apply NE; discriminate).
      destruct (G2 NG) as (I1 & Hi & Hm1 & E). rewrite E. apply IHf.
      * exists (w ++ got). rewrite Hm1, Hi. split; auto. split; auto. rewrite <- app_assoc, <- R, Hr. auto.
      * rewrite Hi. rewrite R, app_length in Hf. destruct got; [congruence|]. cbn [length] in Hf. lia.
Qed.
Lemma lrel_eof s max rem : lrel s max rem -> ls_eof s = false.
Proof. intros (w & (a & c & _ & _ & _ & _ & H) & _). auto. Qed.
Lemma lrel_open max data sched : 0 <= max -> lrel (ls_open (mk_is data sched) max) max data.
Proof.
  intros H. exists []. split; [|split; auto]. exists [], (repeat 0 (Z.to_nat (max * 2))). unfold ls_open. cbn [ls_buf ls_next ls_bufSize ls_max ls_eof app]. repeat split; auto. unfold zlen. rewrite repeat_length. lia.
Qed.
Lemma nexts_lines max : 2 <= max -> forall ls s rem n, lrel s max (lines_text ls rem) -> Forall (fun l => no_lf l /\ zlen (chomp l) <= max) ls ->
  exists s', nexts (length ls + n) s = map (fun l => Ok (Some (chomp l))) ls ++ nexts n s' /\ lrel s' max rem /\ after_nexts (length ls) s = s'.
Proof.
  intros HM. induction ls as [|l ls IH]; intros s rem n R HF.
  - exists s. auto.
  - inversion HF as [|? ? (NL & Hl) HF']; subst. unfold lines_text in R. cbn [map concat] in R. rewrite <- !app_assoc in R. cbn [app] in R. fold (lines_text ls rem) in R.
    destruct (loop_line max l _ HM NL (S (S (length (is_data (ls_is s))))) s R ltac:(lia)) as (s' & E & R'). specialize (R' Hl).
    destruct (IH s' rem n R' HF') as (s2 & E2 & R2 & A2). exists s2. cbn [length plus nexts map app after_nexts]. unfold ls_nextline. rewrite (lrel_eof _ _ _ R), E. cbn [snd]. destruct (_ <=? _) eqn:?; [|lia].
    split; [f_equal; auto|auto].
Qed.
Lemma nexts_eof n s : ls_eof s = true -> nexts n s = repeat (Ok None) n.
Proof. intros H. induction n; auto. cbn [nexts repeat]. unfold ls_nextline. rewrite H. f_equal. auto. Qed.

(** ** C15 *)
Theorem C15_lines : forall max ls last sched n, 2 <= max ->
  Forall (fun l => no_lf l /\ zlen (chomp l) <= max) ls -> no_lf last -> zlen last <= max ->
  nexts (length ls + 1 + n) (ls_open (mk_is (lines_text ls last) sched) max) =
    map (fun l => Ok (Some (chomp l))) ls ++ (match last with [] => Ok None | _ => Ok (Some last) end) :: repeat (Ok None) n.
Proof.
  intros max ls last sched n HM HF NL HL.
  destruct (nexts_lines max HM ls (ls_open (mk_is (lines_text ls last) sched) max) last (1 + n) (lrel_open max _ sched ltac:(lia)) HF) as (s' & E & R & _).
  rewrite <- Nat.add_assoc, E. f_equal. cbn [plus nexts]. unfold ls_nextline. rewrite (lrel_eof _ _ _ R).
  destruct (loop_last max last ltac:(lia) NL (S (S (length (is_data (ls_is s'))))) s' R ltac:(lia)) as (s2 & E2 & Ee). rewrite E2. f_equal; [|apply nexts_eof; auto].
  destruct last; auto. destruct (_ <=? max) eqn:?; auto. lia.
Qed.
(** every byte string is such a text, in one way *)
Theorem C15_lines_exist : forall data, exists ls last, data = lines_text ls last /\ Forall no_lf ls /\ no_lf last.
Proof.
  induction data as [|c data (ls & last & -> & HF & NL)].
  - exists [], []. repeat split; auto; intros [].
  - destruct (Z.eq_dec c 10) as [-> |NE].
    + exists ([] :: ls), last. repeat split; auto; [constructor; auto; intros []].
    + destruct ls as [|l ls].
      * exists [], (c :: last). repeat split; auto. intros [C|C]; auto.
      * inversion HF; subst. exists ((c :: l) :: ls), last. repeat split; auto. constructor; auto. intros [C|C]; auto.
Qed.
Theorem C15_lines_unique : forall ls1 ls2 last1 last2, lines_text ls1 last1 = lines_text ls2 last2 ->
  Forall no_lf ls1 -> Forall no_lf ls2 -> no_lf last1 -> no_lf last2 -> ls1 = ls2 /\ last1 = last2.
Proof.
  assert (A: forall (a b x y : list Z), a ++ 10 :: x = b ++ 10 :: y -> no_lf a -> no_lf b -> a = b /\ x = y).
  { induction a as [|c a IH]; intros [|d b] x y E Ha Hb; cbn in E.
    - injection E as ->. auto.
    - injection E as <- _. exfalso. apply Hb. left. auto.
    - injection E as -> _. exfalso. apply Ha. left. auto.
    - injection E as -> E. destruct (IH b x y E) as [-> ->]; auto; [intros C; apply Ha; right; auto|intros C; apply Hb; right; auto]. }
  assert (B: forall l t last, l ++ 10 :: t = last -> no_lf last -> False).
  { intros l t last <- C. apply C. apply in_app_iff. right. left. auto. }
  induction ls1 as [|l1 ls1 IH]; intros [|l2 ls2] last1 last2 E F1 F2 N1 N2; unfold lines_text in E; cbn [map concat app] in E; rewrite <- ?app_assoc in E; cbn [app] in E.
  - auto.
  - exfalso. eapply B; [symmetry; exact E|auto].
  - exfalso. eapply B; [exact E|auto].
  - inversion F1; inversion F2; subst. destruct (A _ _ _ _ E) as [-> E2]; auto. destruct (IH ls2 last1 last2 E2) as [-> ->]; auto.
Qed.
(** between calls, getRemain and the reader together still hold exactly the unread data *)
Theorem C15_getRemain : forall max ls rest sched, 2 <= max -> Forall (fun l => no_lf l /\ zlen (chomp l) <= max) ls ->
  let s := after_nexts (length ls) (ls_open (mk_is (lines_text ls rest) sched) max) in
  exists r, getRemain s = Ok r /\ r ++ is_data (ls_is s) = rest.
Proof.
  intros max ls rest sched HM HF s.
  destruct (nexts_lines max HM ls (ls_open (mk_is (lines_text ls rest) sched) max) rest 0 (lrel_open max _ sched ltac:(lia)) HF) as (s' & _ & R & E).
  fold s in E. rewrite <- E in R. pose proof (lrel_eof _ _ _ R) as He. destruct R as (w & (a & c & Hb & Ha & Hs & _) & _ & Hr). exists w. split; auto.
  unfold getRemain. rewrite He, Hb, <- Ha. replace (ls_bufSize s - zlen a) with (zlen w) by lia. apply range_app.
Qed.
Example C15_nonvacuous : nexts 4 (ls_open (mk_is (lines_text [str "abc" ++ [13]; []] (str "xy")) [1; 2; 1; 1; 3]) 3) =
  [Ok (Some (str "abc")); Ok (Some []); Ok (Some (str "xy")); Ok None].
Proof. reflexivity. Qed.

(** ** C16 *)
(** the first line that is too long makes next throw, at that line *)
Theorem C16_overlong : forall max ls l rest sched, 2 <= max ->
  Forall (fun l => no_lf l /\ zlen (chomp l) <= max) ls -> no_lf l ->
  (max < zlen (chomp l) -> nexts (length ls + 1) (ls_open (mk_is (lines_text ls (l ++ 10 :: rest)) sched) max) = map (fun l => Ok (Some (chomp l))) ls ++ [Exn]) /\
  (max < zlen l -> nexts (length ls + 1) (ls_open (mk_is (lines_text ls l) sched) max) = map (fun l => Ok (Some (chomp l))) ls ++ [Exn]).
Proof.
  intros max ls l rest sched HM HF NL. split; intros HL.
  - destruct (nexts_lines max HM ls (ls_open (mk_is (lines_text ls (l ++ 10 :: rest)) sched) max) (l ++ 10 :: rest) 1 (lrel_open max _ sched ltac:(lia)) HF) as (s' & E & R & _).
    rewrite E. f_equal. cbn [nexts]. unfold ls_nextline. rewrite (lrel_eof _ _ _ R).
    destruct (loop_line max l rest HM NL (S (S (length (is_data (ls_is s'))))) s' R ltac:(lia)) as (s2 & E2 & _). rewrite E2. destruct (_ <=? _) eqn:?; auto. lia.
  - destruct (nexts_lines max HM ls (ls_open (mk_is (lines_text ls l) sched) max) l 1 (lrel_open max _ sched ltac:(lia)) HF) as (s' & E & R & _).
    rewrite E. f_equal. cbn [nexts]. unfold ls_nextline. rewrite (lrel_eof _ _ _ R).
    destruct (loop_last max l ltac:(lia) NL (S (S (length (is_data (ls_is s'))))) s' R ltac:(lia)) as (s2 & E2 & _). rewrite E2.
    destruct l; [rewrite zlen_nil in HL; lia|]. destruct (_ <=? _) eqn:?; auto. lia.
Qed.
(** whatever the data and the limit: no access outside the 2*max byte buffer, and no line above the limit;
    this covers the calls before the first exception or end of data, the later ones of which return false or throw again *)
Fixpoint ok_run (max : Z) (n : nat) (s : lstream) : Prop :=
  zlen (ls_buf s) = 2 * max /\ 0 <= ls_next s <= ls_bufSize s /\ ls_bufSize s <= 2 * max /\
  match n with
  | O => True
  | S n => match ls_nextline s with
           | (Ok (Some l), s') => zlen l <= max /\ ok_run max n s'
           | (Ok None, s') => ok_run max n s'
           | (Exn, s') => ok_run max n s'
           | _ => False
           end
  end.
Definition ginv (max : Z) (s : lstream) : Prop := ls_max s = max /\ zlen (ls_buf s) = 2 * max /\ 0 <= ls_next s <= ls_bufSize s /\ ls_bufSize s <= 2 * max.
Lemma linv_ginv s w max : linv s w -> ls_max s = max -> ginv max s.
Proof.
  intros (a & c & Hb & Ha & Hs & Hz & He) <-. pose proof (zlen_nonneg a). pose proof (zlen_nonneg c). pose proof (zlen_nonneg w). rewrite Hb, !zlen_app in Hz. unfold ginv. rewrite Hb, !zlen_app. lia.
Qed.
Lemma ginv_linv max s : ginv max s -> ls_eof s = false -> exists w, linv s w.
Proof.
  intros (H1 & H2 & H3 & H4) He. destruct (range_spec (ls_buf s) (ls_next s) (ls_bufSize s - ls_next s)) as (a & w & c & E & Ea & Ew & _); try lia.
  exists w, a, c. repeat split; auto; lia.
Qed.
Lemma next_loop_ginv max : forall f s, ginv max s -> ls_eof s = false -> (length (is_data (ls_is s)) < f)%nat ->
  exists o s', next_loop f s = (o, s') /\ ginv max s' /\ match o with Ok (Some l) => zlen l <= max | Ok None => True | Exn => True | _ => False end.
Proof.
  induction f; intros s G He Hf; [lia|]. destruct (ginv_linv max s G He) as (w & I). assert (Hm: ls_max s = max) by apply G.
  destruct (in_dec Z.eq_dec 10 w) as [IN|NI].
  - assert (D: exists l w2, w = l ++ 10 :: w2 /\ no_lf l).
    { clear -IN. induction w as [|c w IH]; [destruct IN|]. destruct (Z.eq_dec c 10) as [-> |NE]; [exists [], w; split; auto; intros []|].
      destruct IH as (l & w2 & -> & N); [destruct IN; [congruence|auto]|]. exists (c :: l), w2. split; auto. intros [C|C]; auto. }
    destruct D as (l & w2 & -> & N). destruct (loop_lf f s l w2 I N) as (s' & E & I' & Hi & Hm'). rewrite E, Hm. destruct (_ <=? max) eqn:Ec.
    + do 2 eexists. split; [reflexivity|]. split; [eapply linv_ginv; eauto; lia|lia].
    + do 2 eexists. split; [reflexivity|]. split; auto.
  - destruct (loop_no_lf f s w I NI) as (s1 & got & is' & R & G1 & G2). destruct got as [|g got].
    + destruct (G1 eq_refl) as (E1 & E2 & E). rewrite E. do 2 eexists. split; [reflexivity|]. split.
      * (* state after the end of data *)
        assert (B: 0 <= zlen w <= 2 * max). { destruct I as (a & c & Hb & Ha & Hs & Hz & _). rewrite Hb, !zlen_app in Hz. pose proof (zlen_nonneg a). pose proof (zlen_nonneg c). pose proof (zlen_nonneg w). lia. }
        unfold ginv. lia.
      * rewrite Hm. destruct (zlen w =? 0); auto. destruct (max <? zlen w) eqn:?; auto. lia.
    + destruct (G2 ltac:(discriminate)) as (I1 & Hi & Hm1 & E). rewrite E. apply IHf.
      * eapply linv_ginv; eauto. lia.
      * destruct I1 as (? & ? & _ & _ & _ & _ & H). auto.
      * rewrite Hi. assert (0 < 2 * ls_max s - zlen w).
        { assert (0 <= 2 * ls_max s - zlen w). { destruct I as (a & c & Hb & Ha & Hs & Hz & _). rewrite Hb, !zlen_app in Hz. pose proof (zlen_nonneg a). pose proof (zlen_nonneg c). lia. }
          apply readSome_len in R; auto. rewrite zlen_cons in R. pose proof (zlen_nonneg got). lia. }
        destruct (readSome_split _ _ _ _ H R) as (RD & _). rewrite RD, app_length in Hf. cbn [length] in Hf. lia.
Qed.

Theorem C16_bounds : forall max data sched n, 0 <= max -> ok_run max n (ls_open (mk_is data sched) max).
Proof.
  intros max data sched n HM.
  assert (G: forall n s, ginv max s -> ok_run max n s).
  { induction n0; intros s G; pose proof G as (G1 & G2 & G3 & G4); cbn [ok_run]; (split; [auto|split; [auto|split; [auto|]]]); auto.
    unfold ls_nextline. destruct (ls_eof s) eqn:He; [auto|].
    destruct (next_loop_ginv max (S (S (length (is_data (ls_is s))))) s G He ltac:(lia)) as (o & s' & E & G' & O). rewrite E.
    destruct o as [[l|]| | |]; auto. }
  apply G. unfold ginv, ls_open. cbn [ls_buf ls_next ls_bufSize ls_max ls_eof]. unfold zlen. rewrite repeat_length. lia.
Qed.
(** finding: with maxLineSize 1 a one-character CRLF line is rejected; with 0 all data is silently ignored *)
Theorem C16_limit1_finding : nexts 1 (ls_open (mk_is [97; 13; 10] []) 1) = [Exn] /\ nexts 1 (ls_open (mk_is [97; 10] []) 0) = [Ok None].
Proof. split; reflexivity. Qed.
(** finding: a CR before the end of the data is kept although one before LF is removed *)
Theorem C15_last_cr_finding : nexts 2 (ls_open (mk_is [97; 13; 10; 98; 13] []) 10) = [Ok (Some [97]); Ok (Some [98; 13])].
Proof. reflexivity. Qed.

Print Assumptions C15_lines.
Print Assumptions C15_getRemain.
Print Assumptions C16_overlong.
Print Assumptions C16_bounds.
