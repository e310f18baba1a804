(** C96: File (include/cybozu/file.hpp): modes, contents and offsets over every sequence of calls; C97: descriptors. *)
Require Import Verif.Common Verif.TransferModel Verif.TransferProps Verif.FileModel.
Import ListNotations.
Local Open Scope Z_scope.

(** ** Specification *)
Inductive access := Reading | Writing | Appending.
(** the modes the class supports, as its comment lists them (file.hpp:174-180) *)
Definition supported (m : mode) : option access :=
  match m with
  | mk_mode true false false false => Some Reading
  | mk_mode false true false _ => Some Writing
  | mk_mode false true true false => Some Appending
  | _ => None
  end.
(** calls on an open file and what they return *)
Inductive call := CWrite (b : list Z) (s : list kres) | CReadSome (n : Z) (s : list kres) | CRead (n : Z) (s : list kres) | CSeek (p : Z) (d : seekdir) (ok : bool) | CSync (ok : bool) | CSize (ok : bool).
Inductive answer := Done | Got (b : list Z) | Size (n : Z).
(** bytes of a text from an offset *)
Definition from (c : list Z) (p : Z) : list Z := skipn (Z.to_nat p) c.
(** the effect of a call that returns, on the contents of the file and the offset *)
Inductive effect : access -> list Z * Z -> call -> answer -> list Z * Z -> Prop :=
| E_nothing a c p s : effect a (c, p) (CWrite [] s) Done (c, p)
| E_write c p b s : b <> [] -> effect Writing (c, p) (CWrite b s) Done (splice c p b, p + zlen b)
| E_append c p b s : b <> [] -> effect Appending (c, p) (CWrite b s) Done (c ++ b, zlen c + zlen b)
| E_read c p n s b r : from c p = b ++ r -> zlen b = n -> effect Reading (c, p) (CRead n s) (Got b) (c, p + n)
| E_read0 a c p s : effect a (c, p) (CRead 0 s) (Got []) (c, p)
| E_some c p n s b r : from c p = b ++ r -> zlen b <= n -> (b = [] -> n = 0 \/ from c p = []) -> effect Reading (c, p) (CReadSome n s) (Got b) (c, p + zlen b)
| E_seek a c p q d ok : let t := match d with Beg => 0 | Cur => p | End_ => zlen c end + q in 0 <= t -> effect a (c, p) (CSeek q d ok) Done (c, t)
| E_sync a c p ok : effect a (c, p) (CSync ok) Done (c, p)
| E_size a c p ok : effect a (c, p) (CSize ok) (Size (zlen c)) (c, p).
Definition exec (f : file) (k : kernel) (x : call) : res answer * kernel :=
  match x with
  | CWrite b s => let '(r, k) := write f k b s in ((let! _ := r in Ok Done), k)
  | CReadSome n s => let '(r, k) := readSome f k n s in ((let! b := r in Ok (Got b)), k)
  | CRead n s => let '(r, k) := read f k n s in ((let! b := r in Ok (Got b)), k)
  | CSeek p d ok => let '(r, k) := seek f k p d ok in ((let! _ := r in Ok Done), k)
  | CSync ok => ((let! _ := sync f k ok in Ok Done), k)
  | CSize ok => ((let! n := getSize f k ok in Ok (Size n)), k)
  end.
Definition proper (x : call) : Prop := match x with CReadSome n _ | CRead n _ => 0 <= n | _ => True end.
(** the object f has file i open with this access, contents and offset *)
Definition holds (f : file) (k : kernel) (i : nat) (a : access) (c : list Z) (p : Z) : Prop :=
  0 <= hdl_ f /\ 0 <= p /\ (i < length (data k))%nat /\ content k i = c /\ isReadOnly_ f = (match a with Reading => true | _ => false end) /\
  get_fd k (hdl_ f) = Some (mk_of i p (match a with Reading => true | _ => false end) (match a with Appending => true | _ => false end)).
(** nothing but file i and descriptor h differs *)
Definition same_else (i : nat) (h : Z) (k k' : kernel) : Prop :=
  dir k' = dir k /\ length (data k') = length (data k) /\ (forall j, j <> i -> content k' j = content k j) /\ (forall g, g <> h -> get_fd k' g = get_fd k g).
Fixpoint run (f : file) (k : kernel) (l : list call) : res (list answer) * kernel :=
  match l with
  | [] => (Ok [], k)
  | x :: l => let '(r, k) := exec f k x in
              match r with
              | Ok a => let '(r, k) := run f k l in ((let! t := r in Ok (a :: t)), k)
              | Exn => (Exn, k) | UB => (UB, k) | Fuel => (Fuel, k)
              end
  end.
Inductive effects (a : access) : list Z * Z -> list call -> list answer -> list Z * Z -> Prop :=
| S_nil s : effects a s [] [] s
| S_cons s x r s1 l t s2 : effect a s x r s1 -> effects a s1 l t s2 -> effects a s (x :: l) (r :: t) s2.

(** ** Proofs *)
Lemma get_set_same k h o x : get_fd k h = Some x -> get_fd (set_fd k h o) h = o.
Proof.
  unfold get_fd, set_fd. cbn [fds]. destruct (h <? 0); [discriminate|]. destruct (nth_error (fds k) (Z.to_nat h)) as [[y|]|] eqn:E; try discriminate. intros _.
  rewrite nth_error_upd_eq; [destruct o; reflexivity|]. apply nth_error_Some. congruence.
Qed.
Lemma get_set_other k h g o : 0 <= h -> g <> h -> get_fd (set_fd k h o) g = get_fd k g.
Proof. unfold get_fd, set_fd. cbn [fds]. intros H N. destruct (Z.ltb_spec g 0); [reflexivity|]. rewrite nth_error_upd_ne by lia. reflexivity. Qed.
Lemma content_upd k i j c : content (set_content k i c) j = if Nat.eqb i j then (if Nat.ltb i (length (data k)) then c else content k j) else content k j.
Proof.
  unfold content, set_content. cbn [data]. destruct (Nat.eqb_spec i j) as [->|N].
  - destruct (Nat.ltb_spec j (length (data k))) as [L|L]; [apply nth_error_nth, nth_error_upd_eq; auto|]. rewrite !nth_overflow; auto. now rewrite upd_length.
  - destruct (Nat.lt_ge_cases j (length (data k))) as [L|L]; [|rewrite !nth_overflow; rewrite ?upd_length; auto].
    destruct (nth_error (data k) j) eqn:E; [|apply nth_error_None in E; lia]. rewrite (nth_error_nth _ _ _ E). apply nth_error_nth. now rewrite nth_error_upd_ne.
Qed.
Lemma splice_nil c p : splice c p [] = c.
Proof. reflexivity. Qed.
Lemma splice_end c b : splice c (zlen c) b = c ++ b.
Proof.
  unfold splice. destruct b as [|x b]; [cbn; now rewrite app_nil_r|]. cbn [length Nat.eqb]. unfold zlen. rewrite Nat2Z.id, Nat.sub_diag. cbn [repeat]. rewrite app_nil_r, firstn_all. f_equal. rewrite skipn_all2 by lia. apply app_nil_r.
Qed.
Lemma take_all (b : list Z) : take (zlen b) b = b.
Proof. unfold take, zlen. now rewrite Nat2Z.id, firstn_all. Qed.
(** ** C96: every call on an open file: what it returns, contents and offset; when it throws only a write may have changed the file, by a part of its bytes *)
Theorem C96_call f k i a c p x : holds f k i a c p -> proper x -> let '(r, k') := exec f k x in
  r <> UB /\ exists c' p', holds f k' i a c' p' /\ same_else i (hdl_ f) k k' /\
    (forall t, r = Ok t -> effect a (c, p) x t (c', p')) /\
    (r = Exn \/ r = Fuel -> c' = c \/ exists b b' s, x = CWrite (b ++ b') s /\ a <> Reading /\ effect a (c, p) (CWrite b s) Done (c', p')).
Proof.
  intros (H0 & Hp & Hi & Hc & Hr & Hg) P.
  assert (SM : same_else i (hdl_ f) k k) by (repeat split; auto).
  assert (HM : holds f k i a c p) by (repeat split; auto).
  assert (SE : forall q, 0 <= q -> let k' := set_fd k (hdl_ f) (Some (mk_of i q (match a with Reading => true | _ => false end) (match a with Appending => true | _ => false end))) in
               holds f k' i a c q /\ same_else i (hdl_ f) k k').
  { intros q Hq k'. split; [repeat split; auto; eapply get_set_same; eauto|]. repeat split; auto. intros g N. apply get_set_other; auto. }
  destruct x as [b s|n s|n s|q d ok|ok|ok]; cbn [exec].
  - unfold write. rewrite Hg. cbn [ino pos forRead append].
    destruct (file_write (if match a with Reading => true | _ => false end then [KErr] else s) b 0 (zlen b) []) as [r taken] eqn:E.
    pose proof (C56_file_write (if match a with Reading => true | _ => false end then [KErr] else s) b (zlen b) ltac:(pose proof (zlen_nonneg b); lia)) as W. rewrite E in W. destruct W as (rest & W & R & _). cbn [fst snd] in *. rewrite take_all in W.
    assert (RU : r <> UB) by (destruct R as [(-> & _)|[(-> & _)|(-> & _)]]; discriminate).
    assert (Rd : a = Reading -> taken = []).
    { intros ->. cbn in E. destruct (zlen b <=? 0); cbn in E; congruence. }
    split; [destruct r; cbn; congruence|].
    set (q := if match a with Appending => true | _ => false end then zlen (content k i) else p).
    exists (splice (content k i) q taken), (if Nat.eqb (length taken) 0 then p else q + zlen taken).
    assert (EF : forall s', effect a (c, p) (CWrite taken s') Done (splice (content k i) q taken, if Nat.eqb (length taken) 0 then p else q + zlen taken)).
    { intros s'. destruct taken as [|x taken]; [cbn [length Nat.eqb]; rewrite splice_nil, Hc; constructor|]. cbn [length Nat.eqb]. unfold q. destruct a; [specialize (Rd eq_refl); discriminate| |].
      - rewrite Hc. constructor. discriminate.
      - rewrite Hc, splice_end. constructor. discriminate. }
    split; [|split; [|split]].
    + unfold set_fd, set_content. repeat split; auto.
      * destruct (Nat.eqb (length taken) 0); [auto|]. unfold q. pose proof (zlen_nonneg taken). pose proof (zlen_nonneg (content k i)). destruct a; lia.
      * cbn [data]. now rewrite upd_length.
      * pose proof (content_upd k i i (splice (content k i) q taken)) as CU. unfold set_content, content in *. cbn [data] in *. rewrite CU, Nat.eqb_refl. destruct (Nat.ltb_spec i (length (data k))); [reflexivity|lia].
      * pose proof (get_set_same (set_content k i (splice (content k i) q taken)) (hdl_ f)) as GS. unfold set_fd, set_content, get_fd in *. cbn [fds dir data] in *. eapply GS. exact Hg.
    + unfold set_fd, set_content. repeat split; cbn [dir data]; auto.
      * now rewrite upd_length.
      * intros j N. pose proof (content_upd k i j (splice (content k i) q taken)) as CU. unfold set_content, content in *. cbn [data] in *. rewrite CU. destruct (Nat.eqb_spec i j); [congruence|reflexivity].
      * intros g N. pose proof (get_set_other (set_content k i (splice (content k i) q taken)) (hdl_ f) g) as GS. unfold set_fd, set_content, get_fd in *. cbn [fds dir data] in *. apply GS; auto.
    + intros t Et. destruct R as [(-> & ->)|[(-> & _)|(-> & _)]]; cbn in Et; try discriminate. injection Et as <-. rewrite app_nil_r in W. subst b. apply EF.
    + intros _. destruct taken as [|x taken]; [left; now rewrite splice_nil|]. right. exists (x :: taken), rest, s. split; [congruence|]. split; [intros ->; specialize (Rd eq_refl); discriminate|]. apply EF.
  - unfold readSome. rewrite Hg. cbn [forRead]. cbn in P. unfold FileModel.rest at 1. cbn [pos ino]. rewrite Hc.
    destruct a; cbn [forRead].
    2, 3: cbn [TransferModel.readSome bind]; split; [discriminate|]; unfold advance, FileModel.rest; cbn [rs_src pos ino append forRead]; rewrite Hc; rewrite Z.sub_diag, Z.add_0_r; exists c, p;
      destruct (SE p Hp) as (S1 & S2); (split; [exact S1|]); (split; [exact S2|]); split; [discriminate|auto].
    fold (from c p). destruct (TransferModel.readSome s (repeat 0 (Z.to_nat n)) (from c p) 0 n) as [r st] eqn:E.
    destruct (Z.eq_dec n 0) as [->|Nz].
    + assert (G : (exists m, r = Ok 0 /\ st = mk_rs [] (from c p) m) \/ ((r = Exn \/ r = Fuel) /\ rs_src st = from c p)).
      { clear - E. revert r st E. induction s as [|[| |m] s IH]; intros r st E; cbn [TransferModel.readSome] in E.
        - injection E as <- <-. right. auto.
        - eauto.
        - injection E as <- <-. right. auto.
        - change ((0 <? 0) || (zlen (repeat 0 (Z.to_nat 0)) <? 0 + Z.min maxIO 0)) with false in E. cbv iota in E. injection E as <- <-. left. exists s. unfold k_read, maxIO. pose proof (zlen_nonneg (from c p)).
          replace (Z.min (Z.min (Z.min 2147483647 0) (zlen (from c p))) (Z.max 1 m)) with 0 by lia. split; reflexivity. }
      assert (RS : rs_src st = from c p) by (destruct G as [(m & _ & ->)|(_ & G)]; auto).
      unfold advance. cbn [pos ino append forRead]. unfold FileModel.rest. cbn [pos ino]. rewrite Hc. fold (from c p). rewrite RS, Z.sub_diag, Z.add_0_r.
      split; [destruct G as [(m & -> & _)|([->| ->] & _)]; discriminate|]. exists c, p. destruct (SE p Hp) as (S1 & S2). split; [exact S1|]. split; [exact S2|]. split; [|auto].
      intros t Et. destruct G as [(m & -> & ->)|([->| ->] & _)]; cbn in Et; try discriminate. injection Et as <-. replace p with (p + zlen (@nil Z)) at 2 by (cbn; lia). eapply E_some with (r := from c p); auto.
    + pose proof (readSome_gen s (from c p) (repeat 0 (Z.to_nat n)) [] (from c p) n eq_refl ltac:(cbn; lia) ltac:(unfold zlen; rewrite repeat_length; lia)) as G.
      cbn [app length skipn] in G. change (zlen (@nil Z)) with 0 in G. rewrite Z.sub_0_r in G. rewrite E in G.
      unfold advance. cbn [pos ino append forRead]. unfold FileModel.rest. cbn [pos ino]. rewrite Hc. fold (from c p).
      destruct r as [kk| | |].
      * destruct G as (dd & K & S1 & S2 & S3 & S4 & _). cbn [bind]. split; [discriminate|].
        assert (AD : zlen (from c p) - zlen (rs_src st) = zlen dd) by (rewrite S1; unfold zlen; rewrite app_length; lia).
        rewrite AD. exists c, (p + zlen dd). destruct (SE (p + zlen dd) ltac:(pose proof (zlen_nonneg dd); lia)) as (T1 & T2). split; [exact T1|]. split; [exact T2|]. split; [|intros [?|?]; discriminate].
        intros t Et. injection Et as <-. rewrite S2. subst kk. unfold zlen at 1. rewrite Nat2Z.id, firstn_app, firstn_all, Nat.sub_diag. cbn [firstn]. rewrite app_nil_r.
        apply E_some with (r := rs_src st); [exact S1|lia|]. intros ->. right. apply S4. reflexivity.
      * destruct G as (_ & S1 & _). rewrite S1, Z.sub_diag, Z.add_0_r. split; [discriminate|]. exists c, p. destruct (SE p Hp) as (T1 & T2). split; [exact T1|]. split; [exact T2|]. split; [discriminate|auto].
      * destruct G.
      * destruct G as [(_ & S1 & _)|(_ & [])]. rewrite S1, Z.sub_diag, Z.add_0_r. split; [discriminate|]. exists c, p. destruct (SE p Hp) as (T1 & T2). split; [exact T1|]. split; [exact T2|]. split; [discriminate|auto].
  - unfold read. rewrite Hg. cbn [forRead]. cbn in P. unfold FileModel.rest at 1. cbn [pos ino]. rewrite Hc. fold (from c p).
    set (s' := if match a with Reading => true | _ => false end then s else [KErr]).
    pose proof (C56_file_read s' (from c p) (repeat 0 (Z.to_nat n)) n ltac:(unfold zlen; rewrite repeat_length; lia)) as G.
    destruct (run_file_read s' (from c p) (repeat 0 (Z.to_nat n)) n) as [r st] eqn:E. destruct G as (got & (S1 & S2) & R & _). cbn [fst snd] in *.
    unfold advance. cbn [pos ino append forRead]. unfold FileModel.rest. cbn [pos ino]. rewrite Hc. fold (from c p).
    assert (AD : zlen (from c p) - zlen (rs_src st) = zlen got) by (rewrite S1 at 1; unfold zlen; rewrite app_length; lia).
    rewrite AD. split; [destruct R as [(-> & _)|[(-> & _)|(-> & _)]]; discriminate|]. exists c, (p + zlen got). destruct (SE (p + zlen got) ltac:(pose proof (zlen_nonneg got); lia)) as (T1 & T2). split; [exact T1|]. split; [exact T2|]. split; [|auto].
    intros t Et. destruct R as [(-> & L)|[(-> & _)|(-> & _)]]; cbn in Et; try discriminate. injection Et as <-. rewrite S2, skipn_all2 by (rewrite repeat_length; unfold zlen in L; lia). rewrite app_nil_r, L.
    destruct (Z.eq_dec n 0) as [->|Nz].
    + destruct got; [|unfold zlen in L; cbn in L; lia]. rewrite Z.add_0_r. constructor.
    + destruct a; [eapply E_read; eauto| |]; exfalso; unfold s', run_file_read in E; cbn [length file_read] in E; destruct (Z.leb_spec n 0); try lia; cbn in E; congruence.
  - unfold seek. rewrite Hg. cbn [pos ino forRead append]. rewrite Hc. set (t := match d with Beg => 0 | Cur => p | End_ => zlen c end + q).
    destruct (negb ok || (t <? 0)) eqn:E; (split; [discriminate|]).
    + exists c, p. split; [exact HM|]. split; [exact SM|]. split; [discriminate|auto].
    + exists c, t. destruct (SE t) as (T1 & T2); [lia|]. split; [exact T1|]. split; [exact T2|]. split; [|intros [?|?]; discriminate]. intros x Ex. injection Ex as <-. apply E_seek. fold t. lia.
  - split; [unfold sync; destruct (negb (isOpen f)), (isReadOnly_ f); try discriminate; rewrite Hg; destruct ok; discriminate|]. exists c, p. split; [exact HM|]. split; [exact SM|]. split; [|auto].
    intros t Et. assert (t = Done) as -> by (destruct (sync f k ok); cbn in Et; congruence). constructor.
  - unfold getSize. rewrite Hg. cbn [ino]. rewrite Hc. split; [destruct ok; discriminate|]. exists c, p. split; [exact HM|]. split; [exact SM|]. split; [|auto].
    intros t Et. destruct ok; cbn in Et; [injection Et as <-; constructor|discriminate].
Qed.
Lemma same_trans i h k k1 k2 : same_else i h k k1 -> same_else i h k1 k2 -> same_else i h k k2.
Proof. intros (A1 & A2 & A3 & A4) (B1 & B2 & B3 & B4). repeat split; try congruence; intros; [rewrite B3, A3 by auto|rewrite B4, A4 by auto]; reflexivity. Qed.
(** ** C96: a sequence of calls that all return acts on this file as the effects say, and on nothing else *)
Theorem C96_run f i a l : Forall proper l -> forall k c p, holds f k i a c p -> let '(r, k') := run f k l in
  r <> UB /\ exists c' p', holds f k' i a c' p' /\ same_else i (hdl_ f) k k' /\ (forall t, r = Ok t -> effects a (c, p) l t (c', p')) /\ (a = Reading -> c' = c).
Proof.
  induction 1 as [|x l P F IH]; intros k c p H; cbn [run].
  - split; [discriminate|]. exists c, p. split; [auto|]. split; [repeat split; auto|]. split; [|auto]. intros t E. injection E as <-. constructor.
  - pose proof (C96_call f k i a c p x H P) as C. destruct (exec f k x) as [r k1]. destruct C as (U & c1 & p1 & H1 & S1 & E1 & X1).
    assert (R1 : a = Reading -> c1 = c).
    { intros ->. destruct r as [t| | |]; [|destruct (X1 (or_introl eq_refl)) as [?|(b & b' & s & _ & N & _)]; congruence|congruence|destruct (X1 (or_intror eq_refl)) as [?|(b & b' & s & _ & N & _)]; congruence].
      specialize (E1 t eq_refl). inversion E1; subst; auto. }
    destruct r as [t| | |]; [|split; [discriminate|]; exists c1, p1; repeat split; try (apply H1 || apply S1); auto; discriminate|congruence|split; [discriminate|]; exists c1, p1; repeat split; try (apply H1 || apply S1); auto; discriminate].
    specialize (IH k1 c1 p1 H1). destruct (run f k1 l) as [r2 k2]. destruct IH as (U2 & c2 & p2 & H2 & S2 & E2 & R2). split; [destruct r2; cbn; congruence|].
    exists c2, p2. split; [auto|]. split; [eapply same_trans; eauto|]. split; [|intros A; rewrite R2, R1; auto].
    intros ts Et. destruct r2 as [t2| | |]; cbn in Et; try discriminate. injection Et as <-. econstructor; [apply E1; reflexivity|apply E2; reflexivity].
Qed.
(** every name leads to a file *)
Definition sound (k : kernel) : Prop := forall n i, lookup (dir k) n = Some i -> (i < length (data k))%nat.
Lemma free_slot_le l : (free_slot l <= length l)%nat.
Proof. induction l as [|[o|] l IH]; cbn; lia. Qed.
Lemma free_slot_free l : match nth_error l (free_slot l) with Some (Some _) => False | _ => True end.
Proof. induction l as [|[o|] l IH]; cbn; auto. Qed.
Lemma occupy_get d dt l o g : get_fd (mk_k d dt (occupy l o)) g = if g =? Z.of_nat (free_slot l) then Some o else get_fd (mk_k d dt l) g.
Proof.
  unfold get_fd, occupy. cbn [fds]. pose proof (free_slot_le l) as L. destruct (Z.eqb_spec g (Z.of_nat (free_slot l))) as [->|N].
  - destruct (Z.ltb_spec (Z.of_nat (free_slot l)) 0); [lia|]. rewrite Nat2Z.id. destruct (Nat.ltb_spec (free_slot l) (length l)).
    + now rewrite nth_error_upd_eq.
    + replace (free_slot l) with (length l + 0)%nat by lia. rewrite nth_error_app2 by lia. replace (length l + 0 - length l)%nat with O by lia. reflexivity.
  - destruct (Z.ltb_spec g 0); [reflexivity|]. destruct (Nat.ltb_spec (free_slot l) (length l)).
    + rewrite nth_error_upd_ne by lia. reflexivity.
    + destruct (Nat.lt_ge_cases (Z.to_nat g) (length l)); [rewrite nth_error_app1 by lia; reflexivity|]. rewrite !(proj2 (nth_error_None _ _)); [reflexivity|lia|rewrite app_length; cbn; lia].
Qed.
Lemma free_not_open k : get_fd k (Z.of_nat (free_slot (fds k))) = None.
Proof. unfold get_fd. destruct (_ <? 0); [reflexivity|]. rewrite Nat2Z.id. pose proof (free_slot_free (fds k)). destruct (nth_error (fds k) (free_slot (fds k))) as [[o|]|]; tauto. Qed.
Lemma get_fd_ext k k' g : fds k = fds k' -> get_fd k g = get_fd k' g.
Proof. intros E. unfold get_fd. now rewrite E. Qed.
(** what sys_open does *)
Lemma sys_open_spec k name rdonly app trunc ok : sound k -> let '(h, k') := sys_open k name rdonly app trunc ok in
  (h = -1 /\ k' = k /\ (ok = false \/ (rdonly = true /\ lookup (dir k) name = None))) \/
  (h = Z.of_nat (free_slot (fds k)) /\ ok = true /\ (rdonly = true -> lookup (dir k) name <> None) /\ exists i, lookup (dir k') name = Some i /\ (i < length (data k'))%nat /\ sound k' /\
     content k' i = (match lookup (dir k) name with Some j => if trunc then [] else content k j | None => [] end) /\
     (forall g, get_fd k' g = if g =? h then Some (mk_of i 0 rdonly app) else get_fd k g) /\
     (forall n j, lookup (dir k) n = Some j -> lookup (dir k') n = Some j) /\ (forall n, n <> name -> lookup (dir k') n = lookup (dir k) n) /\
     (forall j, (j < length (data k))%nat -> content k' j = content k j \/ (trunc = true /\ lookup (dir k) name = Some j))).
Proof.
  intros SD. unfold sys_open. destruct ok; cbn [negb]; [|left; auto]. destruct (lookup (dir k) name) as [i|] eqn:E.
  - right. assert (F : fds (if trunc then set_content k i [] else k) = fds k) by (destruct trunc; reflexivity). rewrite F.
    assert (D : dir (if trunc then set_content k i [] else k) = dir k) by (destruct trunc; reflexivity). rewrite D.
    assert (LD : length (data (if trunc then set_content k i [] else k)) = length (data k)) by (destruct trunc; cbn; [now rewrite upd_length|reflexivity]).
    split; [reflexivity|]. split; [reflexivity|]. split; [discriminate|]. exists i. cbn [dir data]. rewrite LD. specialize (SD _ _ E) as Li.
    split; [auto|]. split; [auto|]. split; [intros n j; cbn [dir data]; rewrite LD; apply SD|].
    assert (CC : forall j, nth j (data (if trunc then set_content k i [] else k)) [] = if trunc && Nat.eqb i j then [] else content k j).
    { intros j. destruct trunc; [|reflexivity]. pose proof (content_upd k i j []) as CU. unfold content at 1 in CU. cbn [andb]. rewrite CU. destruct (Nat.eqb i j); [|reflexivity]. destruct (Nat.ltb_spec i (length (data k))); [reflexivity|lia]. }
    split; [unfold content at 1; cbn [data]; rewrite CC, Nat.eqb_refl; destruct trunc; reflexivity|].
    split; [intros g; rewrite occupy_get; destruct (g =? _); [reflexivity|apply get_fd_ext; auto]|]. split; [auto|]. split; [auto|].
    intros j Lj. unfold content at 1. cbn [data]. rewrite CC. destruct trunc, (Nat.eqb_spec i j); subst; cbn [andb]; auto.
  - destruct rdonly; [left; auto|]. right. split; [reflexivity|]. split; [reflexivity|]. split; [discriminate|]. exists (length (data k)). cbn [dir data lookup].
    destruct (list_eq_dec Z.eq_dec name name); [|congruence]. split; [reflexivity|]. split; [rewrite app_length; cbn; lia|].
    split; [intros n j; cbn [dir data lookup]; rewrite app_length; cbn [length]; destruct (list_eq_dec Z.eq_dec name n); [intros X; injection X as <-; lia|intros X; specialize (SD _ _ X); lia]|].
    split; [unfold content; cbn [data]; rewrite app_nth2 by lia; now rewrite Nat.sub_diag|].
    split; [intros g; rewrite occupy_get; destruct (g =? _); [reflexivity|apply get_fd_ext; auto]|].
    split; [intros n j X; destruct (list_eq_dec Z.eq_dec name n); [congruence|auto]|]. split; [intros n N; destruct (list_eq_dec Z.eq_dec name n); [congruence|reflexivity]|].
    intros j Lj. left. unfold content. cbn [data]. now rewrite app_nth1.
Qed.
(** ** C96: open: a mode that is not supported throws and touches nothing; otherwise exactly this file is opened, made or emptied *)
Theorem C96_open f k name m d : hdl_ f = -1 -> sound k -> let '(r, f', k') := open f k name m d in
  let existing := lookup (dir k) (cut name) in
  (supported m = None -> r = Exn /\ k' = k /\ hdl_ f' = -1) /\
  (forall a, supported m = Some a ->
     (r = Ok tt <-> d_open d = true /\ (a = Reading -> existing <> None) /\ (a = Appending -> d_stat d = true /\ d_seek d = true)) /\
     (r <> Ok tt -> r = Exn) /\
     (r = Ok tt -> exists i, lookup (dir k') (cut name) = Some i /\
        let c := match a, existing with Writing, _ => [] | _, Some j => content k j | _, None => [] end in
        holds f' k' i a c (match a with Appending => zlen c | _ => 0 end))) /\
  (hdl_ f' = -1 -> r = Exn /\ k' = k) /\ sound k' /\ doClose_ f' = true /\
  (forall j, (j < length (data k))%nat -> content k' j = content k j \/ (supported m = Some Writing /\ existing = Some j)) /\
  (forall n j, lookup (dir k) n = Some j -> lookup (dir k') n = Some j) /\ (forall n, n <> cut name -> lookup (dir k') n = lookup (dir k) n) /\
  (forall g, g <> hdl_ f' -> get_fd k' g = get_fd k g) /\ (hdl_ f' <> -1 -> 0 <= hdl_ f' /\ get_fd k (hdl_ f') = None /\ get_fd k' (hdl_ f') <> None).
Proof.
  intros Hf SD. unfold open, isOpen at 1. cbn [hdl_]. rewrite Hf. cbn [Z.eqb Pos.eqb negb].
  assert (BAD : forall (r : res unit) f', r = Exn -> hdl_ f' = -1 -> doClose_ f' = true -> (supported m = None -> r = Exn /\ k = k /\ hdl_ f' = -1) /\
    (hdl_ f' = -1 -> r = Exn /\ k = k) /\ sound k /\ doClose_ f' = true /\
    (forall j, (j < length (data k))%nat -> content k j = content k j \/ (supported m = Some Writing /\ lookup (dir k) (cut name) = Some j)) /\
    (forall n j, lookup (dir k) n = Some j -> lookup (dir k) n = Some j) /\ (forall n, n <> cut name -> lookup (dir k) n = lookup (dir k) n) /\
    (forall g, g <> hdl_ f' -> get_fd k g = get_fd k g) /\ (hdl_ f' <> -1 -> 0 <= hdl_ f' /\ get_fd k (hdl_ f') = None /\ get_fd k (hdl_ f') <> None)).
  { intros r f' -> E D. repeat split; auto; congruence. }
  destruct m as [mi mo ma mt].
  destruct (supported (mk_mode mi mo ma mt)) as [a|] eqn:SUP.
  2:{ assert (V : exists f1, verifyMode (mk_file name (-1) (doClose_ f) (isReadOnly_ f)) (mk_mode mi mo ma mt) = (false, f1) /\ hdl_ f1 = -1 /\ doClose_ f1 = true).
      { unfold verifyMode. cbn [m_in m_out m_app m_trunc name_ hdl_ doClose_ isReadOnly_]. destruct mi, mo, ma, mt; cbn in *; try discriminate SUP; eauto. }
      destruct V as (f1 & -> & V1 & V2). cbn [negb]. destruct (BAD Exn f1 eq_refl V1 V2) as (B1 & B2). split; [auto|]. split; [discriminate|]. exact B2. }
  assert (V : verifyMode (mk_file name (-1) (doClose_ f) (isReadOnly_ f)) (mk_mode mi mo ma mt) = (true, mk_file name (-1) true (match a with Reading => true | _ => false end))).
  { unfold verifyMode. cbn [m_in m_out m_app m_trunc name_ hdl_ doClose_ isReadOnly_]. destruct mi, mo, ma, mt; cbn in *; try discriminate SUP; injection SUP as <-; reflexivity. }
  rewrite V. cbn [negb]. cbn [m_app].
  assert (HD : setHandle k name (mk_mode mi mo ma mt) (d_open d) = sys_open k (cut name) (match a with Reading => true | _ => false end) (match a with Appending => true | _ => false end) (match a with Writing => true | _ => false end) (d_open d)).
  { unfold setHandle. cbn [m_out m_app]. destruct mi, mo, ma, mt; cbn in *; try discriminate SUP; injection SUP as <-; reflexivity. }
  assert (MA : ma = match a with Appending => true | _ => false end) by (destruct mi, mo, ma, mt; cbn in *; try discriminate SUP; injection SUP as <-; reflexivity).
  rewrite HD, MA. pose proof (sys_open_spec k (cut name) (match a with Reading => true | _ => false end) (match a with Appending => true | _ => false end) (match a with Writing => true | _ => false end) (d_open d) SD) as SO.
  destruct (sys_open k (cut name) _ _ _ (d_open d)) as [h k1]. cbn [name_ doClose_ isReadOnly_]. unfold isOpen. cbn [hdl_].
  destruct SO as [(-> & -> & WHY)|(Eh & OK & EX & i & L1 & L2 & SD1 & C1 & G1 & D1 & D2 & D3)].
  - cbn [Z.eqb Pos.eqb negb]. destruct (BAD Exn (mk_file name (-1) true (match a with Reading => true | _ => false end)) eq_refl eq_refl eq_refl) as (B1 & B2). split; [discriminate|]. split; [|exact B2].
    intros a' EA. injection EA as <-. split; [|split; [auto|discriminate]]. split; [discriminate|]. intros (O1 & O2 & _). destruct WHY as [W|(W & W')]; [congruence|]. destruct a; try discriminate. destruct (O2 eq_refl W').
  - destruct (Z.eqb_spec h (-1)); [lia|]. cbn [negb].
    set (f' := mk_file name h true (match a with Reading => true | _ => false end)).
    assert (GH : get_fd k1 h = Some (mk_of i 0 (match a with Reading => true | _ => false end) (match a with Appending => true | _ => false end))) by (rewrite G1, Z.eqb_refl; reflexivity).
    assert (FR : (hdl_ f' = -1 -> False) /\ 0 <= hdl_ f' /\ get_fd k (hdl_ f') = None) by (cbn [hdl_ f']; subst h; split; [lia|split; [lia|apply free_not_open]]).
    destruct FR as (F1 & F2 & F3).
    assert (DD : forall j, (j < length (data k))%nat -> content k1 j = content k j \/ (Some a = Some Writing /\ lookup (dir k) (cut name) = Some j)).
    { intros j Lj. destruct (D3 j Lj) as [?|(T & T')]; [auto|]. right. destruct a; try discriminate. auto. }
    assert (CC : content k1 i = match a, lookup (dir k) (cut name) with Writing, _ => [] | _, Some j => content k j | _, None => [] end) by (rewrite C1; destruct a, (lookup (dir k) (cut name)); reflexivity).
    assert (EXi : a = Reading -> lookup (dir k) (cut name) <> None) by (intros ->; apply EX; reflexivity).
    destruct (match a with Appending => true | _ => false end) eqn:AP.
    + assert (a = Appending) as -> by (destruct a; congruence). unfold getSize. cbn [hdl_ f']. rewrite GH. cbn [ino]. destruct (d_stat d) eqn:ST.
      * unfold seek. cbn [hdl_ f']. rewrite GH. cbn [ino pos forRead append]. destruct (d_seek d) eqn:SK; cbn [negb orb].
        -- destruct (Z.ltb_spec (0 + zlen (content k1 i)) 0) as [N|_]; [pose proof (zlen_nonneg (content k1 i)); lia|]. set (o' := mk_of i (0 + zlen (content k1 i)) false true).
           split; [discriminate|]. split.
           ++ intros a' EA. injection EA as <-. split; [|split; [congruence|]]. { split; [intros _; auto|auto]. }
              intros _. exists i. split; [auto|]. cbv zeta iota. rewrite <- CC. repeat split; auto; cbn [hdl_ f' isReadOnly_]. { pose proof (zlen_nonneg (content k1 i)); lia. } apply (get_set_same k1 h (Some o')) in GH. exact GH.
           ++ split; [intros; tauto|]. split; [exact SD1|]. split; [reflexivity|]. split; [exact DD|]. split; [exact D1|]. split; [exact D2|]. cbn [hdl_ f'] in *. split; [intros g N; rewrite get_set_other by auto; rewrite G1; destruct (Z.eqb_spec g h); [congruence|reflexivity]|].
              intros _. split; [auto|]. split; [auto|]. rewrite (get_set_same k1 h (Some o') _ GH). discriminate.
        -- split; [discriminate|]. split; [intros a' EA; injection EA as <-; split; [|split; [auto|discriminate]]; split; [discriminate|intros (_ & _ & X); destruct (X eq_refl); congruence]|].
           split; [intros; tauto|]. split; [exact SD1|]. split; [reflexivity|]. split; [exact DD|]. split; [exact D1|]. split; [exact D2|]. cbn [hdl_ f'] in *. split; [intros g N; rewrite G1; destruct (Z.eqb_spec g h); [congruence|reflexivity]|]. intros _. split; [auto|]. split; [auto|]. rewrite GH. discriminate.
      * split; [discriminate|]. split; [intros a' EA; injection EA as <-; split; [|split; [auto|discriminate]]; split; [discriminate|intros (_ & _ & X); destruct (X eq_refl); congruence]|].
        split; [intros; tauto|]. split; [exact SD1|]. split; [reflexivity|]. split; [exact DD|]. split; [exact D1|]. split; [exact D2|]. cbn [hdl_ f'] in *. split; [intros g N; rewrite G1; destruct (Z.eqb_spec g h); [congruence|reflexivity]|]. intros _. split; [auto|]. split; [auto|]. rewrite GH. discriminate.
    + split; [discriminate|]. split.
      * intros a' EA. injection EA as <-. split; [split; [intros _; split; [auto|split; [auto|intros ->; discriminate]]|auto]|]. split; [congruence|]. intros _. exists i. split; [auto|]. cbv zeta. rewrite <- CC.
        assert (PP : match a with Appending => zlen (content k1 i) | _ => 0 end = 0) by (destruct a; [reflexivity|reflexivity|discriminate]). rewrite PP. repeat split; auto; try lia. cbn [hdl_ f']. rewrite GH, AP. reflexivity.
      * split; [intros; tauto|]. split; [exact SD1|]. split; [reflexivity|]. split; [exact DD|]. split; [exact D1|]. split; [exact D2|]. cbn [hdl_ f'] in *. split; [intros g N; rewrite G1; destruct (Z.eqb_spec g h); [congruence|reflexivity]|]. intros _. split; [auto|]. split; [auto|]. rewrite GH. discriminate.
Qed.
(** the bytes of the writes among some calls *)
Fixpoint written (l : list call) : list Z := match l with [] => [] | CWrite b _ :: l => b ++ written l | _ :: l => written l end.
Definition no_seek (x : call) : Prop := match x with CSeek _ _ _ => False | _ => True end.
Lemma zlen_app' (a b : list Z) : zlen (a ++ b) = zlen a + zlen b.
Proof. unfold zlen. rewrite app_length. lia. Qed.
Lemma effects_write l : Forall no_seek l -> forall c t s, effects Writing (c, zlen c) l t s -> fst s = c ++ written l /\ snd s = zlen (fst s).
Proof.
  induction 1 as [|x l N F IH]; intros c t s E; inversion E; subst; [cbn; now rewrite app_nil_r|].
  match goal with H : effect _ _ _ _ _ |- _ => inversion H; subst end; cbn in N; try tauto; cbn [written].
  - eapply IH; eauto.
  - rewrite splice_end in *. rewrite <- zlen_app' in *. destruct (IH _ _ _ ltac:(eassumption)) as (A & B). now rewrite app_assoc.
  - eapply IH; eauto.
  - eapply IH; eauto.
  - eapply IH; eauto.
Qed.
Lemma effects_append l : forall c p t s, effects Appending (c, p) l t s -> fst s = c ++ written l.
Proof.
  induction l as [|x l IH]; intros c p t s E; inversion E; subst; [cbn; now rewrite app_nil_r|].
  match goal with H : effect _ _ _ _ _ |- _ => inversion H; subst end; cbn [written]; try (eapply IH; eassumption).
  rewrite app_assoc. eapply IH; eauto.
Qed.
(** ** C96: a file opened with openW and written without seeks holds exactly the bytes written, in order *)
Theorem C96_create k name d l : sound k -> Forall proper l -> Forall no_seek l ->
  forall f k1 t k2, openW File0 k name d = (Ok tt, f, k1) -> run f k1 l = (Ok t, k2) ->
  exists i, lookup (dir k2) (cut name) = Some i /\ content k2 i = written l.
Proof.
  intros SD P N f k1 t k2 E R. unfold openW in E. pose proof (C96_open File0 k name (mk_mode false true false true) d eq_refl SD) as O. rewrite E in O. destruct O as (_ & O & _). destruct (O Writing eq_refl) as (_ & _ & H). destruct (H eq_refl) as (i & L & HH). cbv zeta in HH.
  pose proof (C96_run f i Writing l P k1 [] 0 HH) as C. rewrite R in C. destruct C as (_ & c' & p' & (_ & _ & _ & HC & _) & (SD2 & _) & EF & _). exists i. split; [congruence|]. rewrite HC.
  pose proof (effects_write l N [] t (c', p') (EF t eq_refl)) as (X & _). exact X.
Qed.
(** ** C96: with ios::app the bytes follow what was there, also with seeks in between *)
Theorem C96_append k name d l : sound k -> Forall proper l ->
  forall f k1 t k2, open File0 k name (mk_mode false true true false) d = (Ok tt, f, k1) -> run f k1 l = (Ok t, k2) ->
  exists i, lookup (dir k2) (cut name) = Some i /\ content k2 i = (match lookup (dir k) (cut name) with Some j => content k j | None => [] end) ++ written l.
Proof.
  intros SD P f k1 t k2 E R. pose proof (C96_open File0 k name (mk_mode false true true false) d eq_refl SD) as O. rewrite E in O. destruct O as (_ & O & _). destruct (O Appending eq_refl) as (_ & _ & H). destruct (H eq_refl) as (i & L & HH). cbv zeta iota in HH.
  pose proof (C96_run f i Appending l P k1 _ _ HH) as C. rewrite R in C. destruct C as (_ & c' & p' & (_ & _ & _ & HC & _) & (SD2 & _) & EF & _). exists i. split; [congruence|]. rewrite HC.
  exact (effects_append l _ _ t (c', p') (EF t eq_refl)).
Qed.
(** ** C96: openR and read give the contents; whatever is called on an object opened for reading, no file changes *)
Theorem C96_reads k name d n s : sound k -> forall f k1, openR File0 k name d = (Ok tt, f, k1) ->
  exists i, lookup (dir k) (cut name) = Some i /\
    (forall b k2, exec f k1 (CRead n s) = (Ok (Got b), k2) -> 0 <= n -> b = firstn (Z.to_nat n) (content k i) /\ zlen b = n) /\
    (forall l, Forall proper l -> let k2 := snd (run f k1 l) in dir k2 = dir k /\ forall j, (j < length (data k))%nat -> content k2 j = content k j).
Proof.
  intros SD f k1 E. unfold openR in E. pose proof (C96_open File0 k name (mk_mode true false false false) d eq_refl SD) as O. rewrite E in O. destruct O as (_ & O & _ & _ & _ & DD & D1 & D2 & _). destruct (O Reading eq_refl) as (ON & _ & H). destruct (H eq_refl) as (i & L & HH). cbv zeta in HH.
  destruct (proj1 ON eq_refl) as (_ & EX & _). specialize (EX eq_refl). destruct (lookup (dir k) (cut name)) as [j|] eqn:Lk; [|congruence]. pose proof (D1 _ _ Lk) as L'. rewrite L in L'. injection L' as <-.
  exists i. split; [reflexivity|]. split.
  - intros b k2 X Hn. pose proof (C96_call f k1 i Reading (content k i) 0 (CRead n s) HH Hn) as C. rewrite X in C. destruct C as (_ & c' & p' & _ & _ & EF & _). specialize (EF _ eq_refl). inversion EF; subst.
    + unfold from in *. cbn [Z.to_nat skipn] in *. match goal with Q : content k i = _ |- _ => rewrite Q end. split; [|reflexivity]. unfold zlen. rewrite Nat2Z.id, firstn_app, firstn_all, Nat.sub_diag. cbn. now rewrite app_nil_r.
    + cbn. auto.
  - intros l P k2. pose proof (C96_run f i Reading l P k1 _ 0 HH) as C. unfold k2. destruct (run f k1 l) as [r k3]. cbn [snd]. destruct C as (_ & c' & p' & (_ & _ & _ & HC & _) & (S1 & _ & S3 & _) & _ & RC).
    assert (DE : dir k1 = dir k).
    { unfold open, isOpen in E. cbn in E. unfold setHandle, sys_open in E. cbn in E. destruct (d_open d); cbn in E; [|discriminate]. rewrite Lk in E. cbn in E. destruct (Z.eqb_spec (Z.of_nat (free_slot (fds k))) (-1)); [lia|]. cbn in E. injection E as <- <-. reflexivity. }
    split; [congruence|]. intros j Lj. destruct (Nat.eq_dec j i) as [->|N].
    + rewrite HC, RC by auto. reflexivity.
    + rewrite S3 by auto. destruct (DD j Lj) as [?|(X & _)]; [auto|discriminate].
Qed.
(** ** Finding: opening an object that is open throws and keeps its file, but later messages name the other file *)
Theorem C96_name_finding f k name m d : isOpen f = true -> open f k name m d = (Exn, mk_file name (hdl_ f) (doClose_ f) (isReadOnly_ f), k).
Proof. unfold isOpen. intros H. unfold open, isOpen. cbn [hdl_]. rewrite H. reflexivity. Qed.
(** ** Finding: a name with a NUL opens, and here empties, the file with the shorter name *)
Theorem C96_nul_finding : let k := mk_k [([97], O)] [[1; 2; 3]] [] in
  let '(r, _, k') := openW File0 k [97; 0; 98] (mk_d true true true) in r = Ok tt /\ content k' 0 = [].
Proof. split; reflexivity. Qed.
Example C96_example : let k0 := mk_k [([97], O)] [[1; 2; 3]] [Some (mk_of O 0 true false)] in
  let '(r1, f1, k1) := openW File0 k0 [98] (mk_d true true true) in
  let '(r2, k2) := run f1 k1 [CWrite [7; 8; 9] [KN 1; KEintr; KN 5]; CSize true; CSeek 5 Beg true; CWrite [4] [KN 1]; CSync true] in
  let '(r3, f3, k3) := close f1 k2 true in
  let '(r4, f4, k4) := openR f3 k3 [98] (mk_d true true true) in
  r1 = Ok tt /\ r2 = Ok [Done; Size 3; Done; Done; Done] /\ r4 = Ok tt /\ content k3 1 = [7; 8; 9; 0; 0; 4] /\
  fst (run f4 k4 [CReadSome 10 [KN 2]; CRead 3 [KN 1; KN 9]]) = Ok [Got [7; 8]; Got [9; 0; 0]] /\ fst (run f4 k4 [CWrite [1] [KN 1]]) = Exn.
Proof. cbn. repeat split. Qed.
Example C96_sound_example : sound (mk_k [([97], O)] [[1; 2; 3]] [Some (mk_of O 0 true false)]).
Proof. intros n i H. cbn [dir lookup] in H. destruct (list_eq_dec Z.eq_dec [97] n); [|discriminate]. assert (i = O) by congruence. subst. cbn. lia. Qed.

(** ** C97: descriptors *)
(** a program with File objects (None: destroyed, or never constructed) *)
Inductive op := New | Create (name : list Z) (m : mode) (d : decide) | Open (x : nat) (name : list Z) (m : mode) (d : decide) | Close (x : nat) (ok : bool) | Destroy (x : nat) (syncOk closeOk : bool) | Use (x : nat) (c : call).
Definition world : Type := list (option file) * kernel.
Definition step (w : world) (o : op) : world :=
  let '(fs, k) := w in
  match o with
  | New => (fs ++ [Some File0], k)
  | Create n m d => let '(f, k) := FileOpen k n m d in (fs ++ [f], k)
  | Open x n m d => match nth_error fs x with Some (Some f) => let '(_, f, k) := open f k n m d in (upd fs x (Some f), k) | _ => w end
  | Close x ok => match nth_error fs x with Some (Some f) => let '(_, f, k) := close f k ok in (upd fs x (Some f), k) | _ => w end
  | Destroy x a b => match nth_error fs x with Some (Some f) => (upd fs x None, dtor f k a b) | _ => w end
  | Use x c => match nth_error fs x with Some (Some f) => (fs, snd (exec f k c)) | _ => w end
  end.
(** calls of read have a size; no sync fails in a destructor, no fstat or lseek fails in open *)
Definition quiet (o : op) : Prop :=
  match o with Create _ _ d | Open _ _ _ d => d_stat d = true /\ d_seek d = true | Destroy _ a _ => a = true | Use _ c => proper c | _ => True end.
(** the descriptors of the open objects *)
Fixpoint owned (fs : list (option file)) : list Z := match fs with [] => [] | Some f :: fs => if isOpen f then hdl_ f :: owned fs else owned fs | None :: fs => owned fs end.
Lemma exec_fds f k x : let k' := snd (exec f k x) in
  (forall g, g <> hdl_ f -> get_fd k' g = get_fd k g) /\ (get_fd k' (hdl_ f) = None <-> get_fd k (hdl_ f) = None) /\ dir k' = dir k /\ length (data k') = length (data k).
Proof.
  assert (SF : forall o x, get_fd k (hdl_ f) = Some x -> let k' := set_fd k (hdl_ f) (Some o) in
     (forall g, g <> hdl_ f -> get_fd k' g = get_fd k g) /\ (get_fd k' (hdl_ f) = None <-> get_fd k (hdl_ f) = None) /\ dir k' = dir k /\ length (data k') = length (data k)).
  { intros o y E k'. assert (0 <= hdl_ f) by (unfold get_fd in E; destruct (Z.ltb_spec (hdl_ f) 0); [discriminate|lia]). unfold k'. split; [intros; apply get_set_other; auto|]. split; [rewrite (get_set_same _ _ _ _ E), E; split; discriminate|]. auto. }
  assert (ID : (forall g, g <> hdl_ f -> get_fd k g = get_fd k g) /\ (get_fd k (hdl_ f) = None <-> get_fd k (hdl_ f) = None) /\ dir k = dir k /\ length (data k) = length (data k)) by tauto.
  destruct x as [b s|n s|n s|p d ok|ok|ok]; cbn [exec].
  - unfold write. destruct (get_fd k (hdl_ f)) as [o|] eqn:E; [|cbn; rewrite E; exact ID]. destruct (file_write _ b 0 (zlen b) []) as [r t]. cbv zeta. cbn [snd].
    set (o' := mk_of _ _ _ _). set (c' := splice _ _ _). pose proof (SF o' o eq_refl) as (A & B & C & D). unfold set_fd, set_content in *. cbn [dir data fds] in *. split; [exact A|]. split; [rewrite <- B; unfold get_fd; cbn [fds]; tauto|]. split; [reflexivity|apply upd_length].
  - unfold readSome. destruct (get_fd k (hdl_ f)) as [o|] eqn:E; [|cbn; rewrite E; exact ID]. destruct (TransferModel.readSome _ _ _ 0 n) as [r st]. cbv zeta. cbn [snd]. unfold advance. eapply SF; eauto.
  - unfold read. destruct (get_fd k (hdl_ f)) as [o|] eqn:E; [|cbn; rewrite E; exact ID]. destruct (run_file_read _ _ _ n) as [r st]. cbv zeta. cbn [snd]. unfold advance. eapply SF; eauto.
  - unfold seek. destruct (get_fd k (hdl_ f)) as [o|] eqn:E; [|cbn; rewrite E; exact ID]. cbv zeta. destruct (_ || _); cbn [snd]; [rewrite E; exact ID|eapply SF; eauto].
  - exact ID.
  - exact ID.
Qed.
Lemma open_quiet f k name m d : hdl_ f = -1 -> sound k -> d_stat d = true -> d_seek d = true -> let '(r, f', _) := open f k name m d in r <> Ok tt -> hdl_ f' = -1.
Proof.
  intros Hf SD ST SK. unfold open, isOpen at 1. cbn [hdl_]. rewrite Hf. cbn [Z.eqb Pos.eqb negb]. destruct (verifyMode _ m) as [good f1] eqn:V.
  assert (V1 : hdl_ f1 = -1) by (unfold verifyMode in V; cbn [hdl_ name_ doClose_ isReadOnly_] in V; destruct (Bool.eqb (m_in m) (m_out m)), (m_in m); injection V as _ <-; reflexivity).
  destruct good; cbn [negb]; [|auto].
  assert (G : let '(h, k1) := setHandle k name m (d_open d) in h = -1 \/ get_fd k1 h <> None).
  { unfold setHandle. destruct (m_out m); [destruct (m_app m)|].
    - pose proof (sys_open_spec k (cut name) false true false (d_open d) SD) as S. destruct (sys_open _ _ _ _ _ _) as [h k1]. destruct S as [(-> & _)|(_ & _ & _ & i & _ & _ & _ & _ & G & _)]; [auto|]. right. rewrite G, Z.eqb_refl. discriminate.
    - pose proof (sys_open_spec k (cut name) false false true (d_open d) SD) as S. destruct (sys_open _ _ _ _ _ _) as [h k1]. destruct S as [(-> & _)|(_ & _ & _ & i & _ & _ & _ & _ & G & _)]; [auto|]. right. rewrite G, Z.eqb_refl. discriminate.
    - pose proof (sys_open_spec k (cut name) true false false (d_open d) SD) as S. destruct (sys_open _ _ _ _ _ _) as [h k1]. destruct S as [(-> & _)|(_ & _ & _ & i & _ & _ & _ & _ & G & _)]; [auto|]. right. rewrite G, Z.eqb_refl. discriminate. }
  destruct (setHandle k name m (d_open d)) as [h k1]. unfold isOpen. cbn [hdl_]. destruct (Z.eqb_spec h (-1)) as [->|N]; cbn [negb]; [auto|].
  destruct G as [G|G]; [congruence|]. destruct (m_app m); [|congruence]. unfold getSize. cbn [hdl_]. destruct (get_fd k1 h) as [o|] eqn:E; [|congruence]. rewrite ST. unfold seek. cbn [hdl_]. rewrite E, SK. cbn [negb orb].
  destruct (Z.ltb_spec (0 + zlen (content k1 (ino o))) 0); [pose proof (zlen_nonneg (content k1 (ino o))); lia|]. congruence.
Qed.
Lemma owned_app a b : owned (a ++ b) = owned a ++ owned b.
Proof. induction a as [|[f|] a IH]; cbn [app owned]; auto. destruct (isOpen f); cbn; now rewrite IH. Qed.
Definition own1 (o : option file) : list Z := match o with Some f => if isOpen f then [hdl_ f] else [] | None => [] end.
Lemma owned_split fs x o : nth_error fs x = Some o -> exists a b, owned fs = a ++ own1 o ++ b /\ forall o', owned (upd fs x o') = a ++ own1 o' ++ b.
Proof.
  intros E. destruct (nth_error_split fs x E) as (l1 & l2 & -> & L). exists (owned l1), (owned l2). split.
  - rewrite owned_app. cbn [owned]. unfold own1. destruct o as [f|]; [destruct (isOpen f)|]; reflexivity.
  - intros o'. rewrite <- L, upd_app_exact, owned_app. cbn [owned]. unfold own1. destruct o' as [f|]; [destruct (isOpen f)|]; reflexivity.
Qed.
Definition inv (k0 : kernel) (w : world) : Prop := let '(fs, k) := w in
  sound k /\ Forall (fun o => match o with Some f => doClose_ f = true /\ (hdl_ f = -1 \/ 0 <= hdl_ f) | None => True end) fs /\
  (forall g, get_fd k0 g <> None -> get_fd k g = get_fd k0 g) /\ (forall g, get_fd k g <> None <-> get_fd k0 g <> None \/ In g (owned fs)) /\
  NoDup (owned fs) /\ (forall g, In g (owned fs) -> get_fd k0 g = None).
Lemma Forall_upd {A} (P : A -> Prop) l n v : Forall P l -> P v -> Forall P (upd l n v).
Proof. intros F V. revert n. induction F; intros [|n]; cbn; constructor; auto. Qed.
Lemma close_fds f k ok : hdl_ f = -1 \/ 0 <= hdl_ f -> let '(_, f', k') := close f k ok in
  hdl_ f' = -1 /\ doClose_ f' = doClose_ f /\ dir k' = dir k /\ data k' = data k /\ forall g, get_fd k' g = if isOpen f && (g =? hdl_ f) then None else get_fd k g.
Proof.
  intros H. unfold close, isOpen. destruct (Z.eqb_spec (hdl_ f) (-1)) as [E|N]; cbn [negb andb]; [auto|]. unfold sys_close. destruct (get_fd k (hdl_ f)) as [o|] eqn:G.
  - assert (X : forall g, get_fd (set_fd k (hdl_ f) None) g = if g =? hdl_ f then None else get_fd k g).
    { intros g. destruct (Z.eqb_spec g (hdl_ f)) as [->|M]; [eapply get_set_same; eauto|apply get_set_other; auto; lia]. }
    destruct ok; cbn [hdl_ doClose_]; repeat split; auto.
  - cbn [hdl_ doClose_]. repeat split; auto. intros g. destruct (Z.eqb_spec g (hdl_ f)) as [->|]; auto.
Qed.
Lemma isOpen_neg f : isOpen f = true <-> hdl_ f <> -1.
Proof. unfold isOpen. destruct (Z.eqb_spec (hdl_ f) (-1)); cbn; intuition congruence. Qed.
Lemma inv_acq k0 fs fs' k k' a b f' : inv k0 (fs, k) -> owned fs = a ++ b -> owned fs' = a ++ own1 (Some f') ++ b ->
  Forall (fun o => match o with Some f => doClose_ f = true /\ (hdl_ f = -1 \/ 0 <= hdl_ f) | None => True end) fs' -> sound k' ->
  (forall g, g <> hdl_ f' -> get_fd k' g = get_fd k g) -> (hdl_ f' <> -1 -> 0 <= hdl_ f' /\ get_fd k (hdl_ f') = None /\ get_fd k' (hdl_ f') <> None) -> (hdl_ f' = -1 -> k' = k) -> inv k0 (fs', k').
Proof.
  intros (_ & _ & I1 & I2 & I3 & I4) A B FC SD G O C. unfold own1 in B. destruct (isOpen f') eqn:P.
  - apply isOpen_neg in P. destruct (O P) as (P1 & P2 & P3).
    assert (NK : get_fd k0 (hdl_ f') = None). { destruct (get_fd k0 (hdl_ f')) eqn:X; [|reflexivity]. rewrite <- (I1 (hdl_ f')) in X by congruence. congruence. }
    assert (NO : ~ In (hdl_ f') (owned fs)). { intros I. assert (get_fd k (hdl_ f') <> None) by (apply I2; auto). congruence. }
    assert (IN : forall g, In g (owned fs') <-> g = hdl_ f' \/ In g (owned fs)). { intros g. rewrite A, B, !in_app_iff. cbn [In]. intuition congruence. }
    unfold inv. split; [auto|]. split; [auto|]. split; [intros g X; rewrite G by congruence; auto|]. split; [|split].
    + intros g. rewrite IN. destruct (Z.eq_dec g (hdl_ f')) as [->|M]; [tauto|]. rewrite G by auto. rewrite I2. tauto.
    + rewrite B. apply (NoDup_Add (a := hdl_ f') (l := a ++ b)); [apply Add_app|]. rewrite <- A. auto.
    + intros g X. apply IN in X as [->|X]; auto.
  - assert (E : hdl_ f' = -1) by (destruct (Z.eq_dec (hdl_ f') (-1)) as [|N]; [auto|apply isOpen_neg in N; congruence]). rewrite (C E) in *. cbn [app] in B. rewrite <- A in B. unfold inv. rewrite B. repeat split; auto; apply I2.
Qed.
Lemma inv_rel k0 fs fs' k k' a b f : inv k0 (fs, k) -> owned fs = a ++ own1 (Some f) ++ b -> owned fs' = a ++ b ->
  Forall (fun o => match o with Some f => doClose_ f = true /\ (hdl_ f = -1 \/ 0 <= hdl_ f) | None => True end) fs' -> sound k' ->
  (forall g, get_fd k' g = if isOpen f && (g =? hdl_ f) then None else get_fd k g) -> inv k0 (fs', k').
Proof.
  intros (_ & _ & I1 & I2 & I3 & I4) A B FC SD G. unfold own1 in A. destruct (isOpen f) eqn:P; cbn [andb] in G.
  - assert (IN : forall g, In g (owned fs) <-> g = hdl_ f \/ In g (owned fs')). { intros g. rewrite A, B, !in_app_iff. cbn [In]. intuition congruence. }
    assert (NO : ~ In (hdl_ f) (owned fs') /\ NoDup (owned fs')). { rewrite B. rewrite A in I3. cbn [app] in I3. split; [apply NoDup_remove_2 in I3|apply NoDup_remove_1 in I3]; auto. } destruct NO as (NO & ND).
    unfold inv. split; [auto|]. split; [auto|]. split; [|split; [|split; [auto|]]].
    + intros g X. rewrite G. destruct (Z.eqb_spec g (hdl_ f)) as [->|]; auto. exfalso. apply X, I4. apply IN. auto.
    + intros g. rewrite G. destruct (Z.eqb_spec g (hdl_ f)) as [->|M]; [|rewrite I2, IN; tauto]. split; [congruence|]. intros [X|X]; [|tauto]. exfalso. apply X, I4, IN. auto.
    + intros g X. apply I4, IN. auto.
  - cbn [app] in A. rewrite <- A in B. unfold inv. rewrite B. split; [auto|]. split; [auto|]. split; [intros; rewrite G; auto|]. split; [intros; rewrite G; apply I2|]. auto.
Qed.
Lemma step_inv k0 w o : quiet o -> inv k0 w -> inv k0 (step w o).
Proof.
  destruct w as [fs k]. intros Q I. pose proof I as (SD & FC & I1 & I2 & I3 & I4). destruct o as [|n m d|x n m d|x ok|x p q|x c]; cbn [step quiet] in *.
  - apply (inv_acq k0 fs _ k k (owned fs) [] File0); auto; [now rewrite app_nil_r|now rewrite owned_app|apply Forall_app; split; auto; constructor; cbn; auto|intros N; cbn in N; congruence].
  - unfold FileOpen. destruct Q as (Q1 & Q2). pose proof (C96_open File0 k n m d eq_refl SD) as O. pose proof (open_quiet File0 k n m d eq_refl SD Q1 Q2) as OQ. destruct (open File0 k n m d) as [[r f'] k'].
    destruct O as (_ & _ & O1 & O2 & O3 & _ & _ & _ & O4 & O5).
    assert (R : r = Ok tt \/ (r <> Ok tt /\ hdl_ f' = -1)) by (destruct r as [[]| | |]; auto; right; split; try discriminate; apply OQ; discriminate).
    assert (HB : hdl_ f' = -1 \/ 0 <= hdl_ f') by (destruct (Z.eq_dec (hdl_ f') (-1)) as [|N]; [auto|right; apply O5; auto]).
    destruct R as [->|(R & C)].
    + apply (inv_acq k0 fs _ k k' (owned fs) [] f'); auto; [now rewrite app_nil_r| |apply Forall_app; split; auto|apply O1].
      rewrite owned_app. cbn [owned own1]. destruct (isOpen f'); now rewrite ?app_nil_r.
    + destruct (O1 C) as (-> & ->). apply (inv_acq k0 fs _ k k (owned fs) [] File0); auto; [now rewrite app_nil_r|now rewrite owned_app|apply Forall_app; split; auto|intros N; cbn in N; congruence].
  - destruct (nth_error fs x) as [[f|]|] eqn:E; auto. assert (FX := proj1 (Forall_forall _ _) FC _ (nth_error_In _ _ E)). cbn in FX. destruct FX as (F1 & F2). destruct (owned_split fs x _ E) as (a & b & W1 & W2).
    destruct (isOpen f) eqn:P.
    + rewrite (C96_name_finding _ _ _ _ _ P). specialize (W2 (Some (mk_file n (hdl_ f) (doClose_ f) (isReadOnly_ f)))). cbn [own1 isOpen hdl_] in W2. unfold own1 in W1. unfold isOpen in W2. unfold isOpen in P. cbn [hdl_] in W2. unfold isOpen in W1. rewrite P in *. rewrite <- W1 in W2.
      unfold inv. rewrite W2. repeat split; auto; [apply Forall_upd; cbn; auto|apply I2|apply I2].
    + assert (H : hdl_ f = -1) by (destruct (Z.eq_dec (hdl_ f) (-1)) as [|N]; [auto|apply isOpen_neg in N; congruence]).
      destruct Q as (Q1 & Q2). pose proof (C96_open f k n m d H SD) as O. destruct (open f k n m d) as [[r f'] k'].
      destruct O as (_ & _ & O1 & O2 & O3 & _ & _ & _ & O4 & O5). unfold own1 in W1. rewrite P in W1.
      apply (inv_acq k0 fs _ k k' a b f'); auto; [apply Forall_upd; auto; split; auto; destruct (Z.eq_dec (hdl_ f') (-1)) as [|N]; [auto|right; apply O5; auto]|apply O1].
  - destruct (nth_error fs x) as [[f|]|] eqn:E; auto. assert (FX := proj1 (Forall_forall _ _) FC _ (nth_error_In _ _ E)). cbn in FX. destruct FX as (F1 & F2). destruct (owned_split fs x _ E) as (a & b & W1 & W2).
    pose proof (close_fds f k ok F2) as C. destruct (close f k ok) as [[r f'] k']. destruct C as (C1 & C2 & C3 & C4 & C5).
    apply (inv_rel k0 fs _ k k' a b f); auto; [|apply Forall_upd; auto; split; [congruence|auto]|intros n i; rewrite C3, C4; apply SD].
    rewrite W2. cbn [own1]. unfold isOpen. rewrite C1. reflexivity.
  - destruct (nth_error fs x) as [[f|]|] eqn:E; auto. assert (FX := proj1 (Forall_forall _ _) FC _ (nth_error_In _ _ E)). cbn in FX. destruct FX as (F1 & F2). destruct (owned_split fs x _ E) as (a & b & W1 & W2).
    subst p. pose proof (close_fds f k q F2) as C. unfold dtor. rewrite F1. cbn [negb orb].
    assert (X : forall k', (dir k' = dir k /\ data k' = data k /\ forall g, get_fd k' g = if isOpen f && (g =? hdl_ f) then None else get_fd k g) -> inv k0 (upd fs x None, k')).
    { intros k' (C3 & C4 & C5). apply (inv_rel k0 fs _ k k' a b f); auto; [rewrite W2; reflexivity|apply Forall_upd; auto|intros n i; rewrite C3, C4; apply SD]. }
    apply X. unfold sync. destruct (isOpen f) eqn:P; cbn [negb].
    + assert (L : get_fd k (hdl_ f) <> None) by (apply I2; right; rewrite W1; unfold own1; rewrite P; apply in_or_app; right; left; auto).
      destruct (get_fd k (hdl_ f)); [|congruence]. destruct (isReadOnly_ f); destruct (close f k q) as [[r f'] k']; cbn [snd]; tauto.
    + unfold close. rewrite P. cbn. auto.
  - destruct (nth_error fs x) as [[f|]|] eqn:E; auto. assert (FX := proj1 (Forall_forall _ _) FC _ (nth_error_In _ _ E)). cbn in FX. destruct FX as (F1 & F2). destruct (owned_split fs x _ E) as (a & b & W1 & W2).
    destruct (exec_fds f k c) as (C1 & C2 & C3 & C4). set (k' := snd (exec f k c)) in *.
    assert (N0 : get_fd k0 (hdl_ f) = None).
    { destruct (isOpen f) eqn:P; [apply I4; rewrite W1; unfold own1; rewrite P; apply in_or_app; right; left; auto|]. assert (H : hdl_ f = -1) by (destruct (Z.eq_dec (hdl_ f) (-1)) as [|N]; [auto|apply isOpen_neg in N; congruence]). rewrite H. reflexivity. }
    unfold inv. split; [intros n i; rewrite C3, C4; apply SD|]. split; [auto|]. split; [|split; [|auto]].
    + intros g G. rewrite C1 by congruence. auto.
    + intros g. rewrite <- I2. destruct (Z.eq_dec g (hdl_ f)) as [->|M]; [tauto|]. rewrite C1 by auto. tauto.
Qed.

(** C97: whatever a program does with File objects it opened by name — any order of construction, open, close, destruction, reads, writes and
    seeks, with calls that fail — each open object has a descriptor of its own, no descriptor that was open before is closed or moved, and the
    descriptors that are open are those from before and those of the open objects *)
Theorem C97_descriptors k0 ops : sound k0 -> Forall quiet ops -> let '(fs, k) := fold_left step ops ([], k0) in
  NoDup (owned fs) /\ (forall g, In g (owned fs) -> get_fd k0 g = None) /\
  (forall g, get_fd k0 g <> None -> get_fd k g = get_fd k0 g) /\
  (forall g, get_fd k g <> None <-> get_fd k0 g <> None \/ In g (owned fs)).
Proof.
  intros SD Q. assert (I0 : inv k0 ([], k0)). { split; [exact SD|]. split; [constructor|]. split; [auto|]. split; [cbn; tauto|]. split; [constructor|cbn; tauto]. }
  revert I0. generalize ([] : list (option file), k0) at 1 2 as w. induction Q as [|o ops H Q IH]; intros w I; cbn [fold_left].
  - destruct w as [fs k]. destruct I as (_ & _ & I1 & I2 & I3 & I4). auto.
  - apply IH. apply step_inv; auto.
Qed.
(** when every object is closed or destroyed, the descriptors are those from before *)
Theorem C97_restored k0 ops : sound k0 -> Forall quiet ops -> let '(fs, k) := fold_left step ops ([], k0) in
  (forall f, In (Some f) fs -> isOpen f = false) -> forall g, get_fd k g = get_fd k0 g.
Proof.
  intros SD Q. pose proof (C97_descriptors k0 ops SD Q) as C. destruct (fold_left step ops ([], k0)) as [fs k]. destruct C as (_ & _ & C1 & C2). intros A.
  assert (O : owned fs = []). { clear -A. induction fs as [|[f|] fs IH]; cbn [owned]; auto; [rewrite (A f) by (left; auto)|]; apply IH; intros g I; apply A; right; auto. }
  rewrite O in C2. intros g. destruct (get_fd k0 g) eqn:E; [rewrite <- E; apply C1; congruence|]. destruct (get_fd k g) eqn:G; auto. exfalso. assert (get_fd k g <> None) as X by congruence. apply C2 in X. cbn [In] in X. destruct X as [X|[]]; congruence.
Qed.
(** an object attached to a handle leaves it open when it is destroyed; close, called by the program, closes it *)
Theorem C97_attached h k a b : dtor (FileH h) k a b = k /\ (get_fd k h <> None -> get_fd (snd (close (FileH h) k b)) h = None).
Proof.
  split; [reflexivity|]. intros N. assert (0 <= h) by (unfold get_fd in N; destruct (Z.ltb_spec h 0); [congruence|lia]).
  pose proof (close_fds (FileH h) k b (or_intror H)) as C. destruct (close (FileH h) k b) as [[r f] k']. destruct C as (_ & _ & _ & _ & C). cbn [snd]. rewrite C. cbn [hdl_ FileH]. rewrite Z.eqb_refl. unfold isOpen. cbn [hdl_ FileH]. destruct (Z.eqb_spec h (-1)); [lia|]. reflexivity.
Qed.
(** ** Finding: the destructor of an object open for writing does not close the descriptor when fdatasync fails (as it does on a pipe) *)
Theorem C97_sync_finding f k b : isOpen f = true -> isReadOnly_ f = false -> dtor f k false b = k.
Proof. intros O R. unfold dtor, sync. rewrite O, R. cbn [negb]. destruct (doClose_ f), (get_fd k (hdl_ f)); reflexivity. Qed.
(** ** Finding: the constructor with ios::app of a file that has no size or position (a FIFO) throws and leaves a descriptor open that no object has *)
Theorem C97_append_finding : let k := mk_k [([97], O)] [[]] [] in
  let '(f, k') := FileOpen k [97] (mk_mode false true true false) (mk_d true true false) in f = None /\ get_fd k' 0 <> None.
Proof. split; [reflexivity|discriminate]. Qed.
Example C97_example : let k0 := mk_k [([97], O)] [[1; 2; 3]] [Some (mk_of O 0 true false)] in
  let ops := [New; Create [98] (mk_mode false true false true) (mk_d true true true); Create [99] (mk_mode true false false false) (mk_d true true true); Open 0 [97] (mk_mode true false false false) (mk_d true true true); Use 1 (CWrite [5] [KN 1]); Close 1 false; Open 1 [97] (mk_mode false true true false) (mk_d true true true); Destroy 0 true true] in
  Forall quiet ops /\ let '(fs, k) := fold_left step ops ([], k0) in owned fs = [1] /\ map (fun g => match get_fd k g with Some o => Some (ino o, pos o) | None => None end) [0; 1; 2] = [Some (0%nat, 0); Some (0%nat, 3); None] /\ content k 1 = [5].
Proof. split; [repeat constructor; cbn; auto|]. cbn. repeat split. Qed.

(** C96: on a File that is not open, before open or after close, every call leaves the system as it is; all throw but those with nothing to do *)
Inductive idle : call -> answer -> Prop :=
| I_write s : idle (CWrite [] s) Done
| I_read s : idle (CRead 0 s) (Got [])
| I_sync ok : idle (CSync ok) Done.
Theorem C96_closed f k x : hdl_ f = -1 -> proper x -> snd (exec f k x) = k /\ (fst (exec f k x) = Exn \/ exists t, fst (exec f k x) = Ok t /\ idle x t) /\
  (forall t, idle x t -> fst (exec f k x) = Ok t) /\ (forall ok, close f k ok = (Ok tt, f, k)).
Proof.
  intros H P. assert (G : get_fd k (hdl_ f) = None) by (rewrite H; reflexivity). assert (O : isOpen f = false) by (unfold isOpen; rewrite H; reflexivity).
  assert (C : forall ok, close f k ok = (Ok tt, f, k)) by (intros ok; unfold close; now rewrite O).
  destruct x as [b s|n s|n s|q d ok|ok|ok]; cbn [exec].
  - unfold write. rewrite G. destruct b as [|c b]; cbn [fst snd].
    + split; [reflexivity|]. split; [right; exists Done; split; [reflexivity|constructor]|]. split; [intros t I; inversion I; reflexivity|exact C].
    + cbn [file_write]. destruct (Z.leb_spec (zlen (c :: b)) 0) as [L|L]; [rewrite zlen_cons in L; pose proof (zlen_nonneg b); lia|]. cbn [fst bind].
      split; [reflexivity|]. split; [now left|]. split; [intros t I; inversion I|exact C].
  - unfold readSome. rewrite G. cbn [fst snd bind]. split; [reflexivity|]. split; [now left|]. split; [intros t I; inversion I|exact C].
  - unfold read. rewrite G. cbn [fst snd]. split; [reflexivity|]. cbn [proper] in P. destruct (Z.eq_dec n 0) as [->|N].
    + split; [right; exists (Got []); split; [reflexivity|constructor]|]. split; [intros t I; inversion I; reflexivity|exact C].
    + assert (E : fst (run_file_read [KErr] [] (repeat 0 (Z.to_nat n)) n) = Exn).
      { unfold run_file_read. cbn [length file_read]. destruct (Z.leb_spec n 0); [lia|]. reflexivity. }
      rewrite E. cbn [bind]. split; [now left|]. split; [intros t I; inversion I; congruence|exact C].
  - unfold seek. rewrite G. cbn [fst snd bind]. split; [reflexivity|]. split; [now left|]. split; [intros t I; inversion I|exact C].
  - unfold sync. rewrite O. cbn [negb fst snd bind]. split; [reflexivity|]. split; [right; exists Done; split; [reflexivity|constructor]|]. split; [intros t I; inversion I; reflexivity|exact C].
  - unfold getSize. rewrite G. cbn [fst snd bind]. split; [reflexivity|]. split; [now left|]. split; [intros t I; inversion I|exact C].
Qed.
Example C96_closed_case : let k := mk_k [] [] [] in fst (exec File0 k (CWrite [1] [KN 1])) = Exn /\ fst (exec File0 k (CRead 3 [KN 1])) = Exn /\ fst (exec File0 k (CSync false)) = Ok Done.
Proof. repeat split. Qed.

Print Assumptions C96_closed.
Print Assumptions C96_call.
Print Assumptions C96_run.
Print Assumptions C96_open.
Print Assumptions C96_create.
Print Assumptions C96_append.
Print Assumptions C96_reads.
Print Assumptions C96_name_finding.
Print Assumptions C96_nul_finding.
Print Assumptions C97_descriptors.
Print Assumptions C97_restored.
Print Assumptions C97_attached.
Print Assumptions C97_sync_finding.
Print Assumptions C97_append_finding.
