(** C105: the atomic operations of include/cybozu/atomic.hpp under every interleaving of every number of threads *)
Require Import Verif.Common Verif.AtomicModel.
Require Import Permutation.
Import ListNotations.
Local Open Scope Z_scope.

(** ** Specification *)
(** the calls on object k, in the order of the memory *)
Definition on (k : nat) (ds : list done) : list done := filter (fun d => Nat.eqb (object (did d)) k) ds.
Definition sum (l : list Z) : Z := fold_right Z.add 0 l.
Definition is_add (d : done) : Prop := exists y, what (did d) = Add y.
Definition is_xchg (d : done) : Prop := exists v, what (did d) = Xchg v.
Definition addend (d : done) : Z := match what (did d) with Add y => y | _ => 0 end.
Definition stored (d : done) : Z := match what (did d) with Xchg v => v | _ => 0 end.

Section W.
Variable w : Z.
Hypothesis W : 0 < w.
Notation run := (run w).

Lemma run_app cs1 : forall mem ds mem' cs2, run mem (cs1 ++ cs2) = Ok (ds, mem') <->
  exists ds1 mem1 ds2, run mem cs1 = Ok (ds1, mem1) /\ run mem1 cs2 = Ok (ds2, mem') /\ ds = ds1 ++ ds2.
Proof.
  induction cs1 as [|c cs1 IH]; intros mem ds mem' cs2.
  - cbn [app run AtomicModel.run]. split.
    + intros E. exists [], mem, ds. split; [reflexivity|]. split; [exact E|reflexivity].
    + intros (d1 & m1 & d2 & E1 & E2 & ->). injection E1 as <- <-. exact E2.
  - cbn [app AtomicModel.run]. destruct (nth_error mem (object c)) as [p|].
    2: { split; [discriminate|]. intros (? & ? & ? & E & _); discriminate. }
    destruct (apply w (what c) p) as [v r]. split.
    + intros E. destruct (run (upd mem (object c) v) (cs1 ++ cs2)) as [[d m]| | |] eqn:R; try discriminate.
      cbn [bind] in E. injection E as <- <-. apply IH in R. destruct R as (d1 & m1 & d2 & E1 & E2 & ->).
      exists (mk_done c r :: d1), m1, d2. rewrite E1. cbn [bind]. split; [reflexivity|]. split; [exact E2|reflexivity].
    + intros (d1 & m1 & d2 & E1 & E2 & ->).
      destruct (run (upd mem (object c) v) cs1) as [[d m]| | |] eqn:R; try discriminate.
      cbn [bind] in E1. injection E1 as <- <-.
      assert (X : run (upd mem (object c) v) (cs1 ++ cs2) = Ok (d ++ d2, mem')).
      { apply IH. exists d, m, d2. split; [exact R|]. split; [exact E2|reflexivity]. }
      rewrite X. reflexivity.
Qed.

(** what one object sees *)
Fixpoint trace (p : Z) (ds : list done) : Prop :=
  match ds with
  | [] => True
  | d :: ds => returned d = p /\ trace (fst (apply w (what (did d)) p)) ds
  end.
Fixpoint last_of (p : Z) (ds : list done) : Z :=
  match ds with [] => p | d :: ds => last_of (fst (apply w (what (did d)) p)) ds end.
Lemma apply_snd o p : snd (apply w o p) = p. Proof. destruct o; reflexivity. Qed.
Lemma run_trace cs : forall mem ds mem' k p, run mem cs = Ok (ds, mem') -> nth_error mem k = Some p ->
  trace p (on k ds) /\ nth_error mem' k = Some (last_of p (on k ds)).
Proof.
  induction cs as [|c cs IH]; intros mem ds mem' k p E K.
  - injection E as <- <-. split; [exact I|exact K].
  - cbn [AtomicModel.run] in E. destruct (nth_error mem (object c)) as [q|] eqn:Q; [|discriminate].
    pose proof (apply_snd (what c) q) as SN.
    destruct (apply w (what c) q) as [v r] eqn:AP. cbn [snd] in SN. subst r.
    destruct (run (upd mem (object c) v) cs) as [[d m]| | |] eqn:R; try discriminate.
    cbn [bind] in E. injection E as <- <-. unfold on. cbn [filter did].
    destruct (Nat.eqb_spec (object c) k) as [<-|N].
    + rewrite Q in K. injection K as ->.
      assert (L : (object c < length mem)%nat) by (apply nth_error_Some; congruence).
      destruct (IH _ _ _ (object c) v R) as [T Z]; [apply nth_error_upd_eq; exact L|].
      cbn [trace last_of did returned]. rewrite AP. cbn [fst]. split; [split; [reflexivity|exact T]|exact Z].
    + apply (IH _ _ _ k p R). rewrite nth_error_upd_ne; [exact K|exact N].
Qed.
Lemma run_calls cs : forall mem ds mem', run mem cs = Ok (ds, mem') -> map did ds = cs /\ length mem' = length mem.
Proof.
  induction cs as [|c cs IH]; intros mem ds mem' E.
  - injection E as <- <-. split; reflexivity.
  - cbn [AtomicModel.run] in E. destruct (nth_error mem (object c)) as [q|]; [|discriminate].
    destruct (apply w (what c) q) as [v r]. destruct (run (upd mem (object c) v) cs) as [[d m]| | |] eqn:R; try discriminate.
    cbn [bind] in E. injection E as <- <-. destruct (IH _ _ _ R) as [A B]. split; [cbn [map did]; now rewrite A|].
    rewrite B. apply upd_length.
Qed.

(** every call on existing objects is performed, once *)
Theorem C105_total : forall cs mem, Forall (fun c => (object c < length mem)%nat) cs ->
  exists ds mem', run mem cs = Ok (ds, mem') /\ map did ds = cs /\ length mem' = length mem.
Proof.
  induction cs as [|c cs IH]; intros mem F.
  - exists [], mem. split; [reflexivity|]. split; reflexivity.
  - inversion F as [|? ? H F']; subst. cbn [AtomicModel.run].
    destruct (nth_error mem (object c)) as [q|] eqn:Q; [|apply nth_error_None in Q; lia].
    destruct (apply w (what c) q) as [v r].
    destruct (IH (upd mem (object c) v)) as (ds & m & E & A & B); [rewrite upd_length; exact F'|].
    exists (mk_done c r :: ds), m. rewrite E. split; [reflexivity|]. rewrite upd_length in B.
    split; [cbn [map did]; now rewrite A|exact B].
Qed.
(** an object nobody names keeps its value *)
Theorem C105_frame : forall cs mem ds mem' k p, run mem cs = Ok (ds, mem') -> nth_error mem k = Some p ->
  Forall (fun c => object c <> k) cs -> nth_error mem' k = Some p.
Proof.
  intros cs mem ds mem' k p E K F. destruct (run_trace _ _ _ _ _ _ E K) as [_ L].
  destruct (run_calls _ _ _ _ E) as [M _].
  assert (X : on k ds = []).
  { unfold on. assert (G : Forall (fun d => object (did d) <> k) ds).
    { rewrite <- M in F. rewrite Forall_map in F. exact F. }
    clear -G. induction G as [|d ds H G IH]; [reflexivity|]. cbn [filter].
    destruct (Nat.eqb_spec (object (did d)) k); [contradiction|exact IH]. }
  rewrite X in L. exact L.
Qed.

Lemma add_trace ds : forall p, 0 <= p < 2 ^ w -> Forall is_add ds -> trace p ds ->
  last_of p ds = (p + sum (map addend ds)) mod 2 ^ w /\
  forall a d b, ds = a ++ d :: b -> returned d = (p + sum (map addend a)) mod 2 ^ w.
Proof.
  induction ds as [|d ds IH]; intros p P F T.
  - cbn [last_of map sum fold_right]. split; [rewrite Z.add_0_r, Z.mod_small by lia; reflexivity|]. intros [|? ?] ? ? H; discriminate.
  - inversion F as [|? ? [y Y] F']; subst. cbn [trace] in T. destruct T as [R T]. cbn [last_of map sum fold_right].
    rewrite Y in *. cbn [apply AtomicAdd fst] in *.
    assert (P' : 0 <= (p + y) mod 2 ^ w < 2 ^ w) by (apply Z.mod_pos_bound; lia).
    destruct (IH _ P' F' T) as [L Q]. unfold addend at 1. rewrite Y. split.
    + rewrite L. rewrite Zplus_mod_idemp_l. f_equal. unfold sum. lia.
    + intros [|x a] d' b H.
      * injection H as <- <-. cbn [map sum fold_right]. rewrite Z.add_0_r, Z.mod_small by lia. exact R.
      * injection H as <- ->. rewrite (Q a d' b eq_refl). cbn [map sum fold_right]. unfold addend at 2. rewrite Y.
        rewrite Zplus_mod_idemp_l. f_equal. unfold sum. lia.
Qed.
(** AtomicAdd loses no update: the object ends as the sum of all addends, and each call returns the sum of those before it *)
Theorem C105_add : forall cs mem ds mem' k p, run mem cs = Ok (ds, mem') -> nth_error mem k = Some p -> 0 <= p < 2 ^ w ->
  Forall is_add (on k ds) ->
  nth_error mem' k = Some ((p + sum (map addend (on k ds))) mod 2 ^ w) /\
  forall a d b, on k ds = a ++ d :: b -> returned d = (p + sum (map addend a)) mod 2 ^ w.
Proof.
  intros cs mem ds mem' k p E K P F. destruct (run_trace _ _ _ _ _ _ E K) as [T L].
  destruct (add_trace _ _ P F T) as [A B]. rewrite A in L. split; [exact L|exact B].
Qed.
Lemma sum_ones l : Forall (fun d => what (did d) = Add 1) l -> sum (map addend l) = zlen l.
Proof.
  induction 1 as [|d l H F IH]; [reflexivity|]. cbn [map sum fold_right]. fold (sum (map addend l)). rewrite IH.
  unfold addend. rewrite H. unfold zlen. cbn [length]. lia.
Qed.
(** counting up by one gives every caller its own number, as long as there are not more calls than numbers *)
Theorem C105_tickets : forall cs mem ds mem' k p, run mem cs = Ok (ds, mem') -> nth_error mem k = Some p -> 0 <= p < 2 ^ w ->
  Forall (fun d => what (did d) = Add 1) (on k ds) -> zlen (on k ds) <= 2 ^ w ->
  NoDup (map returned (on k ds)).
Proof.
  intros cs mem ds mem' k p E K P F N.
  assert (FA : Forall is_add (on k ds)) by (eapply Forall_impl; [|exact F]; intros d H; exists 1; exact H).
  destruct (C105_add _ _ _ _ _ _ E K P FA) as [_ B].
  apply NoDup_nth_error. intros i j Hi Hij. rewrite map_length in Hi.
  assert (Hj : (j < length (on k ds))%nat).
  { rewrite nth_error_map in Hij. destruct (nth_error (on k ds) i) eqn:Q; [|apply nth_error_None in Q; lia].
    cbn [option_map] in Hij. symmetry in Hij. rewrite nth_error_map in Hij.
    apply nth_error_Some. destruct (nth_error (on k ds) j); [discriminate|discriminate Hij]. }
  assert (V : forall n, (n < length (on k ds))%nat -> nth_error (map returned (on k ds)) n = Some ((p + Z.of_nat n) mod 2 ^ w)).
  { intros n Hn. rewrite nth_error_map. destruct (nth_error (on k ds) n) as [d|] eqn:Q; [|apply nth_error_None in Q; lia].
    destruct (nth_error_split _ _ Q) as (a & b & S & L). cbn [option_map]. rewrite (B a d b S).
    rewrite sum_ones; [unfold zlen; rewrite L; reflexivity|].
    rewrite S in F. apply Forall_app in F. exact (proj1 F). }
  rewrite (V i Hi), (V j Hj) in Hij. injection Hij as Q. unfold zlen in N.
  assert (D : (Z.of_nat i - Z.of_nat j) mod 2 ^ w = 0).
  { replace (Z.of_nat i - Z.of_nat j) with ((p + Z.of_nat i) - (p + Z.of_nat j)) by lia.
    rewrite Zminus_mod, Q, Z.sub_diag. apply Zmod_0_l. }
  assert (M : 0 < 2 ^ w) by (apply Z.pow_pos_nonneg; lia).
  generalize dependent (2 ^ w). intros M0 *. intros.
  apply Z.mod_divide in D; [|lia]. destruct D as [q D].
  assert (q = 0) by nia. subst q. lia.
Qed.

Lemma xchg_trace ds : forall p, Forall is_xchg ds -> trace p ds -> map returned ds ++ [last_of p ds] = p :: map stored ds.
Proof.
  induction ds as [|d ds IH]; intros p F T; [reflexivity|].
  inversion F as [|? ? [y Y] F']; subst. cbn [trace] in T. destruct T as [R T].
  cbn [last_of map app]. rewrite Y in *. cbn [apply AtomicExchange fst] in *. rewrite (IH _ F' T), R. unfold stored at 2. rewrite Y. reflexivity.
Qed.
(** AtomicExchange duplicates and loses nothing: the values handed out and the one left are exactly the first one and those stored;
    in memory order each call returns what the call before it stored *)
Theorem C105_exchange : forall cs mem ds mem' k p, run mem cs = Ok (ds, mem') -> nth_error mem k = Some p ->
  Forall is_xchg (on k ds) ->
  exists q, nth_error mem' k = Some q /\ map returned (on k ds) ++ [q] = p :: map stored (on k ds).
Proof.
  intros cs mem ds mem' k p E K F. destruct (run_trace _ _ _ _ _ _ E K) as [T L].
  exists (last_of p (on k ds)). split; [exact L|]. apply xchg_trace; assumption.
Qed.
(** so a handle stored once is taken by one caller only, if everybody else stores [none] (the release of Socket and ThreadBase) *)
Theorem C105_take_once : forall cs mem ds mem' k h none, run mem cs = Ok (ds, mem') -> nth_error mem k = Some h -> h <> none ->
  Forall (fun d => what (did d) = Xchg none) (on k ds) ->
  (on k ds = [] /\ nth_error mem' k = Some h) \/
  (exists d rest, on k ds = d :: rest /\ returned d = h /\ Forall (fun d => returned d = none) rest /\ nth_error mem' k = Some none).
Proof.
  intros cs mem ds mem' k h none E K H F. destruct (run_trace _ _ _ _ _ _ E K) as [T L].
  destruct (on k ds) as [|d rest] eqn:Q; [left; split; [reflexivity|exact L]|right].
  exists d, rest. split; [reflexivity|]. inversion F as [|? ? Y F']; subst. cbn [trace last_of] in T, L. destruct T as [R T].
  rewrite Y in *. cbn [apply AtomicExchange fst] in *. split; [exact R|].
  clear -T L F'. revert T L. induction F' as [|x l X G IH]; intros T L; [split; [constructor|exact L]|].
  cbn [trace last_of] in T, L. destruct T as [R T]. rewrite X in *. cbn [apply AtomicExchange fst] in *.
  destruct (IH T L) as [A B]. split; [constructor; assumption|exact B].
Qed.

(** AtomicCompareExchange: the answer tells whether it stored *)
Theorem C105_cas : forall cs mem ds mem' k p new old t, run mem (cs ++ [mk_call t k (Cas new old)]) = Ok (ds, mem') ->
  nth_error mem k = Some p ->
  exists ds0 mem0 r, run mem cs = Ok (ds0, mem0) /\ ds = ds0 ++ [mk_done (mk_call t k (Cas new old)) r] /\
    nth_error mem0 k = Some r /\
    nth_error mem' k = Some (if r =? old then new else r).
Proof.
  intros cs mem ds mem' k p new old t E K. apply run_app in E. destruct E as (d1 & m1 & d2 & E1 & E2 & ->).
  cbn [AtomicModel.run object what] in E2. destruct (nth_error m1 k) as [q|] eqn:Q; [|discriminate].
  cbn [apply AtomicCompareExchange bind] in E2. injection E2 as <- <-.
  exists d1, m1, q. split; [exact E1|]. split; [reflexivity|]. split; [exact Q|].
  apply nth_error_upd_eq. apply nth_error_Some. congruence.
Qed.

(** ** A spin lock made of AtomicCompareExchange(&x, 1, 0) and AtomicExchange(&x, 0) *)
(** who holds the lock on object k after these calls: entered when Cas returned 0, left by its own Xchg 0 *)
Fixpoint holders (ds : list done) (h : list nat) : list nat :=
  match ds with
  | [] => h
  | d :: ds =>
      match what (did d) with
      | Cas _ _ => holders ds (if returned d =? 0 then thread (did d) :: h else h)
      | _ => holders ds (remove Nat.eq_dec (thread (did d)) h)
      end
  end.
(** only a thread that holds the lock releases it, and nothing else is done to the object *)
Fixpoint disciplined (ds : list done) (h : list nat) : Prop :=
  match ds with
  | [] => True
  | d :: ds =>
      match what (did d) with
      | Cas new old => new = 1 /\ old = 0 /\ disciplined ds (if returned d =? 0 then thread (did d) :: h else h)
      | Xchg v => v = 0 /\ In (thread (did d)) h /\ disciplined ds (remove Nat.eq_dec (thread (did d)) h)
      | Add _ => False
      end
  end.
Lemma lock_inv ds : forall p h, trace p ds -> disciplined ds h -> (p = 0 /\ h = [] \/ p = 1 /\ exists t, h = [t]) ->
  (last_of p ds = 0 /\ holders ds h = [] \/ last_of p ds = 1 /\ exists t, holders ds h = [t]).
Proof.
  induction ds as [|d ds IH]; intros p h T D I; [exact I|].
  cbn [trace last_of holders disciplined] in *. destruct T as [R T].
  destruct (what (did d)) as [y|n o|v]; [destruct D| |].
  - destruct D as (-> & -> & D). cbn [apply AtomicCompareExchange fst] in *. rewrite R in *.
    destruct I as [[-> ->]|[-> [t ->]]].
    + cbn [Z.eqb] in *. apply IH; [exact T|exact D|]. right. split; [reflexivity|eexists; reflexivity].
    + change (1 =? 0) with false in *. cbv iota in *. apply IH; [exact T|exact D|]. right. split; [reflexivity|eexists; reflexivity].
  - destruct D as (-> & J & D). cbn [apply AtomicExchange fst] in *.
    destruct I as [[-> ->]|[-> [t ->]]]; [destruct J|].
    destruct J as [J|[]]. rewrite <- J in *. apply IH; [exact T|exact D|]. left. split; [reflexivity|].
    cbn [remove]. destruct (Nat.eq_dec t t) as [_|N]; [reflexivity|contradiction].
Qed.
(** at most one thread holds the lock at any time (every prefix of a run is a run), and it is free exactly when x is 0 *)
Theorem C105_spinlock : forall cs mem ds mem' k, run mem cs = Ok (ds, mem') -> nth_error mem k = Some 0 ->
  disciplined (on k ds) [] ->
  (length (holders (on k ds) []) <= 1)%nat /\ (nth_error mem' k = Some 0 <-> holders (on k ds) [] = []).
Proof.
  intros cs mem ds mem' k E K D. destruct (run_trace _ _ _ _ _ _ E K) as [T L]. rewrite L.
  destruct (lock_inv _ 0 [] T D) as [[A B]|[A [t B]]]; [left; split; reflexivity| |]; rewrite A, B.
  - split; [cbn; lia|]. split; reflexivity.
  - split; [cbn; lia|]. split; intros X; [injection X; discriminate|discriminate].
Qed.
End W.

(** two threads count up, a third takes the handle of the other object *)
Definition mixed : list call :=
  [mk_call 0 0 (Add 1); mk_call 1 0 (Add 1); mk_call 2 1 (Xchg 0); mk_call 0 0 (Add 4294967295); mk_call 1 1 (Xchg 0)].
Example C105_ex : run 32 [4294967295; 77] mixed =
  Ok ([mk_done (mk_call 0 0 (Add 1)) 4294967295; mk_done (mk_call 1 0 (Add 1)) 0; mk_done (mk_call 2 1 (Xchg 0)) 77;
       mk_done (mk_call 0 0 (Add 4294967295)) 1; mk_done (mk_call 1 1 (Xchg 0)) 0], [0; 0]).
Proof. reflexivity. Qed.
Example C105_ex_lock : exists ds mem', run 32 [0] [mk_call 0 0 (Cas 1 0); mk_call 1 0 (Cas 1 0); mk_call 0 0 (Xchg 0); mk_call 1 0 (Cas 1 0)] = Ok (ds, mem') /\
  disciplined (on 0 ds) [] /\ holders (on 0 ds) [] = [1%nat].
Proof.
  do 2 eexists. split; [reflexivity|]. split; [|reflexivity].
  cbn. split; [reflexivity|]. split; [reflexivity|]. split; [reflexivity|]. split; [reflexivity|]. split; [reflexivity|].
  split; [left; reflexivity|]. split; [reflexivity|]. split; [reflexivity|]. exact I.
Qed.
(** the limit of [C105_tickets] is exact: with 2^w+1 calls a number comes twice (here w = 1) *)
Example C105_ex_wrap : exists ds mem', run 1 [0] [mk_call 0 0 (Add 1); mk_call 1 0 (Add 1); mk_call 0 0 (Add 1)] = Ok (ds, mem') /\
  map returned (on 0 ds) = [0; 1; 0].
Proof. do 2 eexists. split; reflexivity. Qed.

Print Assumptions C105_total.
Print Assumptions C105_frame.
Print Assumptions C105_add.
Print Assumptions C105_tickets.
Print Assumptions C105_exchange.
Print Assumptions C105_take_once.
Print Assumptions C105_cas.
Print Assumptions C105_spinlock.
