(** C72: thread local storage: each thread sees what it stored itself, in that object. *)
Require Import Verif.Common Verif.TlsModel.

(** ** specification: each object holds a value per thread, nothing else *)
Record tspec := mk_tspec { p_valid : bool; p_val : Z -> Z }.
Definition sobj := Z -> option tspec.
Definition sput (f : sobj) (o : Z) (v : option tspec) : sobj := fun o' => if o' =? o then v else f o'.
(** the calls that make sense, and what they return; key: what pthread_key_create returned *)
Fixpoint answers (f : sobj) (l : list top) : list tans :=
  match l with
  | [] => []
  | TMake o k :: r => answers (sput f o (Some (mk_tspec (match k with Some _ => true | None => false end) (fun _ => 0)))) r
  | TSet t o p ok :: r =>
    match f o with
    | Some x => ASet (p_valid x && ok) ::
                answers (if p_valid x && ok then sput f o (Some (mk_tspec true (fun t' => if t' =? t then p else p_val x t'))) else f) r
    | None => answers f r
    end
  | TGet t o :: r => match f o with Some x => AGet (if p_valid x then p_val x t else 0) :: answers f r | None => answers f r end
  | TDestroy t o _ :: r => answers (sput f o None) r
  | TCopy _ _ :: r => answers f r
  end.
(** objects are used while they exist and are not copied; the system does not return a key that exists *)
Fixpoint proper (objs : Z -> option (option Z)) (l : list top) : Prop :=
  let upd o v := fun o' => if o' =? o then v else objs o' in
  match l with
  | [] => True
  | TMake o k :: r => objs o = None /\ (forall x, k = Some x -> 0 <= x < KEYS_MAX /\ forall o', objs o' <> Some (Some x)) /\ proper (upd o (Some k)) r
  | TSet _ o _ _ :: r | TGet _ o :: r => objs o <> None /\ proper objs r
  | TDestroy _ o _ :: r => objs o <> None /\ proper (upd o None) r
  | TCopy _ _ :: r => False
  end.

(** ** invariant *)
Record inv (s : tsys) (f : sobj) (objs : Z -> option (option Z)) : Prop := {
  i_obj : forall o, t_obj s o = match objs o with Some (Some k) => Some k | Some None => Some invalidTlsIndex | None => None end;
  i_spec : forall o, match objs o, f o with
                     | Some (Some k), Some x => p_valid x = true /\ forall t, k_val (t_keys s) k t = p_val x t
                     | Some None, Some x => p_valid x = false
                     | None, None => True
                     | _, _ => False
                     end;
  i_range : forall o k, objs o = Some (Some k) -> 0 <= k < KEYS_MAX;
  i_uniq : forall o o' k, objs o = Some (Some k) -> objs o' = Some (Some k) -> o = o';
  i_live : forall k, In k (k_live (t_keys s)) <-> exists o, objs o = Some (Some k)
}.
Lemma live_ok s k : live s k = true <-> In k (k_live s).
Proof.
  unfold live. rewrite existsb_exists. split; [intros (x & H & E); apply Z.eqb_eq in E; congruence|intros H; exists k; split; auto; apply Z.eqb_refl].
Qed.
Lemma inv0 : inv tsys0 (fun _ => None) (fun _ => None).
Proof. constructor; cbn; auto; try discriminate. intros k. split; [contradiction|intros (o & H); discriminate]. Qed.
Lemma valid_in k : 0 <= k < KEYS_MAX -> isValid k = true.
Proof. intros H. unfold isValid, invalidTlsIndex in *. destruct (Z.eqb_spec k (KEYS_MAX + 1)); cbn; auto; lia. Qed.
Lemma steps_ok l : forall s f objs, inv s f objs -> proper objs l -> exists s' objs', tsteps s l = Ok (s', answers f l) /\
  (forall o, t_obj s' o = match objs' o with Some (Some k) => Some k | Some None => Some invalidTlsIndex | None => None end) /\
  (forall k, In k (k_live (t_keys s')) <-> exists o, objs' o = Some (Some k)).
Proof.
  induction l as [|c l IH]; intros s f objs I P.
  { exists s, objs. split; [reflexivity|]. split; apply I. }
  destruct c as [o k|t o p ok|t o|t o ok|o o']; cbn [proper] in P.
  - destruct P as (Ho & Hk & P). destruct k as [k|]; cbn [tsteps tstep Init bind answers].
    + destruct (Hk k eq_refl) as [Hr Hf]. edestruct IH as (s' & objs' & E & R); [|exact P|rewrite E; exists s', objs'; split; [reflexivity|exact R]].
      destruct I as [I1 I2 I3 I4 I5]. constructor; cbn [t_obj t_keys k_live k_val key_create]; unfold put, sput.
      * intros o'. destruct (Z.eqb_spec o' o); auto.
      * intros o'. destruct (Z.eqb_spec o' o) as [->|Hne]; cbn [p_valid p_val].
        -- split; auto. intros t. rewrite Z.eqb_refl. reflexivity.
        -- specialize (I2 o'). destruct (objs o') as [[k'|]|] eqn:E; destruct (f o') as [y|]; auto. destruct I2 as [Hv Hx]. split; auto. intros t.
           destruct (Z.eqb_spec k' k) as [->|]; auto. contradiction (Hf o').
      * intros o' k'. destruct (Z.eqb_spec o' o); [intros H; injection H as <-; exact Hr|apply I3].
      * intros a b k'. destruct (Z.eqb_spec a o) as [->|Ha], (Z.eqb_spec b o) as [->|Hb]; auto.
        -- intros H. injection H as <-. intros H. contradiction (Hf b).
        -- intros H1 H. injection H as <-. contradiction (Hf a).
        -- apply I4.
      * intros k'. cbn [In]. rewrite I5. split.
        -- intros [<-|(o' & H)]; [exists o; rewrite Z.eqb_refl; reflexivity|]. exists o'. destruct (Z.eqb_spec o' o) as [->|]; [congruence|exact H].
        -- intros (o' & H). revert H. destruct (Z.eqb_spec o' o) as [->|]; intros H; [injection H as <-; auto|right; eauto].
    + edestruct IH as (s' & objs' & E & R); [|exact P|rewrite E; exists s', objs'; split; [reflexivity|exact R]].
      destruct I as [I1 I2 I3 I4 I5]. constructor; cbn [t_obj t_keys]; unfold put, sput.
      * intros o'. destruct (Z.eqb_spec o' o); auto.
      * intros o'. destruct (Z.eqb_spec o' o) as [->|Hne]; cbn [p_valid p_val]; auto. apply I2.
      * intros o' k'. destruct (Z.eqb_spec o' o); [discriminate|apply I3].
      * intros a b k'. destruct (Z.eqb_spec a o) as [->|Ha], (Z.eqb_spec b o) as [->|Hb]; try discriminate. apply I4.
      * intros k'. rewrite I5. split; intros (o' & H); exists o'; revert H; destruct (Z.eqb_spec o' o) as [->|]; congruence.
  - destruct P as (Ho & P). cbn [tsteps tstep answers]. rewrite (i_obj _ _ _ I o). pose proof (i_spec _ _ _ I o) as Hs.
    destruct (objs o) as [[k|]|] eqn:Eo; [| |congruence]; destruct (f o) as [x|] eqn:Ef; try contradiction.
    + unfold set. rewrite valid_in by (eapply i_range; eauto). unfold setspecific.
      assert (Hl : live (t_keys s) k = true) by (apply live_ok, (i_live _ _ _ I); eauto). rewrite Hl. cbn [negb].
      destruct Hs as [Hv Hx]. rewrite Hv. cbn [andb]. destruct ok; cbn [bind].
      * edestruct IH as (s' & objs' & E & R); [|exact P|rewrite E; exists s', objs'; split; [reflexivity|exact R]].
        destruct I as [I1 I2 I3 I4 I5]. constructor; cbn [t_obj t_keys k_live k_val]; auto.
        intros o'. unfold sput. destruct (Z.eqb_spec o' o) as [->|Hne]; cbn [p_valid p_val].
        -- rewrite Eo. split; auto. intros t'. rewrite Z.eqb_refl. cbn [andb]. rewrite Hx. reflexivity.
        -- specialize (I2 o'). destruct (objs o') as [[k'|]|] eqn:E; destruct (f o') as [y|]; auto. destruct I2 as [Hv' Hx']. split; auto. intros t'.
           destruct (Z.eqb_spec k' k) as [->|]; [|cbn [andb]; apply Hx']. contradiction Hne. eapply I4; eauto.
      * edestruct IH as (s' & objs' & E & R); [|exact P|]. 2:{ cbn [t_keys]. rewrite E. exists s', objs'. split; [reflexivity|exact R]. }
        destruct I as [I1 I2 I3 I4 I5]. constructor; cbn [t_obj t_keys]; auto.
    + unfold set. rewrite Hs. change (isValid invalidTlsIndex) with false. cbn [bind andb].
      edestruct IH as (s' & objs' & E & R); [|exact P|rewrite E; exists s', objs'; split; [reflexivity|exact R]].
      destruct I as [I1 I2 I3 I4 I5]. constructor; cbn [t_obj t_keys]; auto.
  - destruct P as (Ho & P). cbn [tsteps tstep answers]. rewrite (i_obj _ _ _ I o). pose proof (i_spec _ _ _ I o) as Hs.
    destruct (objs o) as [[k|]|] eqn:Eo; [| |congruence]; destruct (f o) as [x|] eqn:Ef; try contradiction.
    + unfold get. rewrite valid_in by (eapply i_range; eauto). unfold getspecific.
      assert (Hl : live (t_keys s) k = true) by (apply live_ok, (i_live _ _ _ I); eauto). rewrite Hl. cbn [negb bind].
      destruct Hs as [Hv Hx]. rewrite Hv, Hx. edestruct IH as (s' & objs' & E & R); [exact I|exact P|rewrite E; exists s', objs'; split; [reflexivity|exact R]].
    + unfold get. rewrite Hs. change (isValid invalidTlsIndex) with false. cbn [bind].
      edestruct IH as (s' & objs' & E & R); [exact I|exact P|rewrite E; exists s', objs'; split; [reflexivity|exact R]].
  - destruct P as (Ho & P). cbn [tsteps tstep answers]. rewrite (i_obj _ _ _ I o).
    destruct (objs o) as [[k|]|] eqn:Eo; [| |congruence].
    + unfold destroy, set. rewrite valid_in by (eapply i_range; eauto). unfold setspecific.
      assert (Hl : live (t_keys s) k = true) by (apply live_ok, (i_live _ _ _ I); eauto). rewrite Hl. cbn [negb].
      assert (Hd : exists v, (let! (_, s0) := if ok then Ok (true, mk_keys (k_live (t_keys s)) (fun k' t' => if (k' =? k) && (t' =? t) then 0 else k_val (t_keys s) k' t')) else Ok (false, t_keys s) in key_delete s0 k)
                = Ok (mk_keys (filter (fun x => negb (x =? k)) (k_live (t_keys s))) v) /\ forall k' t', k' <> k -> v k' t' = k_val (t_keys s) k' t').
      { destruct ok; cbn [bind]; unfold key_delete.
        - replace (live (mk_keys _ _) k) with true by (symmetry; exact Hl). cbn [negb k_live k_val]. eexists. split; [reflexivity|].
          intros k' t' Hne. apply Z.eqb_neq in Hne. cbv beta. rewrite Hne. reflexivity.
        - rewrite Hl. cbn [negb]. eexists. split; [reflexivity|]. auto. }
      destruct Hd as (v & -> & Hv). cbn [bind].
      edestruct IH as (s' & objs' & E & R); [|exact P|rewrite E; exists s', objs'; split; [reflexivity|exact R]].
      destruct I as [I1 I2 I3 I4 I5]. constructor; cbn [t_obj t_keys k_live k_val]; unfold put, sput.
      * intros o'. destruct (Z.eqb_spec o' o); auto.
      * intros o'. destruct (Z.eqb_spec o' o) as [->|Hne]; auto. specialize (I2 o'). destruct (objs o') as [[k'|]|] eqn:E; destruct (f o') as [y|]; auto.
        destruct I2 as [Hv' Hx']. split; auto. intros t'. rewrite Hv; auto. intros ->. contradiction Hne. eapply I4; eauto.
      * intros o' k'. destruct (Z.eqb_spec o' o); [discriminate|apply I3].
      * intros a b k'. destruct (Z.eqb_spec a o), (Z.eqb_spec b o); try discriminate. apply I4.
      * intros k'. rewrite filter_In, I5. split.
        -- intros [(o' & H) Hk]. exists o'. destruct (Z.eqb_spec o' o) as [->|]; auto. rewrite Eo in H. injection H as ->. rewrite Z.eqb_refl in Hk. discriminate.
        -- intros (o' & H). revert H. destruct (Z.eqb_spec o' o); intros H; [discriminate|]. split; [eauto|]. destruct (Z.eqb_spec k' k) as [->|]; auto.
           contradiction n. eapply I4; eauto.
    + unfold destroy. change (isValid invalidTlsIndex) with false. cbn [bind].
      edestruct IH as (s' & objs' & E & R); [|exact P|rewrite E; exists s', objs'; split; [reflexivity|exact R]].
      destruct I as [I1 I2 I3 I4 I5]. constructor; cbn [t_obj t_keys]; unfold put, sput.
      * intros o'. destruct (Z.eqb_spec o' o); auto.
      * intros o'. destruct (Z.eqb_spec o' o) as [->|Hne]; auto. apply I2.
      * intros o' k'. destruct (Z.eqb_spec o' o); [discriminate|apply I3].
      * intros a b k'. destruct (Z.eqb_spec a o), (Z.eqb_spec b o); try discriminate. apply I4.
      * intros k'. rewrite I5. split; intros (o' & H); exists o'; revert H; destruct (Z.eqb_spec o' o) as [->|]; congruence.
  - contradiction.
Qed.

(** ** C72 *)
(** C72: get returns what the same thread last stored in the same object, or null; set reports whether it stored *)
Theorem C72_values : forall l, proper (fun _ => None) l -> exists s, tsteps tsys0 l = Ok (s, answers (fun _ => None) l).
Proof. intros l P. destruct (steps_ok l _ _ _ inv0 P) as (s & objs & E & _). eauto. Qed.
(** C72: the keys that exist are those of the objects that exist: none is left when all objects are gone *)
Theorem C72_keys : forall l s a, proper (fun _ => None) l -> tsteps tsys0 l = Ok (s, a) -> (forall o, t_obj s o = None) -> k_live (t_keys s) = [].
Proof.
  intros l s a P E H. destruct (steps_ok l _ _ _ inv0 P) as (s' & objs & E' & H1 & H2). rewrite E in E'. injection E' as <- _.
  destruct (k_live (t_keys s)) as [|k r]; auto. destruct (proj1 (H2 k) (or_introl eq_refl)) as (o & Ho).
  specialize (H1 o). rewrite Ho, H in H1. discriminate.
Qed.
(** two objects, two threads, a key that is used again, an object without a key *)
Definition demo : list top :=
  [TMake 1 (Some 0); TMake 2 (Some 1); TSet 7 1 100 true; TSet 8 1 200 true; TSet 7 2 300 true; TSet 7 2 400 false; TGet 7 1; TGet 8 1; TGet 8 2; TGet 7 2;
   TDestroy 7 1 true; TMake 3 (Some 0); TGet 8 3; TMake 4 None; TSet 7 4 500 true; TGet 7 4; TDestroy 8 2 true; TDestroy 7 3 true; TDestroy 7 4 true].
Example C72_ex : proper (fun _ => None) demo /\
  match tsteps tsys0 demo with
  | Ok (s, a) => (a, k_live (t_keys s), map (t_obj s) [1;2;3;4]) | _ => ([], [0], []) end =
    ([ASet true; ASet true; ASet true; ASet false; AGet 100; AGet 200; AGet 0; AGet 300; AGet 0; ASet false; AGet 0], [], [None; None; None; None]).
Proof.
  split.
  - cbn. repeat match goal with |- _ /\ _ => split end; try reflexivity; try exact I; try discriminate; try (intros x Hx; discriminate Hx).
    all: intros x Hx; injection Hx as <-; split; [unfold KEYS_MAX; lia|].
    all: intros o' H; repeat match type of H with (if ?c then _ else _) = _ => destruct c; try discriminate H end; discriminate H.
  - vm_compute. reflexivity.
Qed.

(** ** Finding: Tls can be copied, but destroying the copy deletes the key of the original *)
Theorem C72_copy_finding : tsteps tsys0 [TMake 1 (Some 0); TSet 7 1 100 true; TCopy 1 2; TDestroy 7 2 true; TGet 7 1] = UB /\
  (exists r, tsteps tsys0 [TMake 1 (Some 0); TSet 7 1 100 true; TCopy 1 2; TGet 7 1] = Ok r) /\
  (exists r, tsteps tsys0 [TMake 1 (Some 0); TSet 7 1 100 true; TCopy 1 2; TDestroy 7 2 true] = Ok r).
Proof. split; [reflexivity|]. split; eexists; reflexivity. Qed.

Print Assumptions C72_values.
Print Assumptions C72_keys.
Print Assumptions C72_copy_finding.
