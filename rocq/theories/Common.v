(** Common definitions shared by the models: outcomes, byte lists, checked access.
    Nothing here is specific to one header of the library. *)
Require Export ZArith List Bool Lia.
Require Export ZifyBool ZifyNat.
Export ListNotations.
Open Scope Z_scope.
Open Scope list_scope.

Ltac Zify.zify_post_hook ::= Z.div_mod_to_equations.

(** Outcome of a modelled C++ function: normal result, C++ exception, undefined behaviour
    (out of range access, signed overflow, ...), or fuel of the model exhausted. *)
Inductive res (A : Type) : Type :=
| Ok (a : A)
| Exn
| UB
| Fuel.
Arguments Ok {A} a.
Arguments Exn {A}.
Arguments UB {A}.
Arguments Fuel {A}.

Definition bind {A B} (x : res A) (f : A -> res B) : res B :=
  match x with
  | Ok a => f a
  | Exn => Exn
  | UB => UB
  | Fuel => Fuel
  end.
Notation "'let!' x ':=' a 'in' b" := (bind a (fun x => b))
  (at level 200, x pattern, a at level 100, b at level 200, right associativity).

(** checked array read *)
Definition rd {A} (l : list A) (i : Z) : res A :=
  if (i <? 0) then UB else
  match nth_error l (Z.to_nat i) with Some a => Ok a | None => UB end.

(** list update, no effect out of range *)
Fixpoint upd {A} (l : list A) (n : nat) (v : A) : list A :=
  match l, n with
  | [], _ => []
  | _ :: t, O => v :: t
  | h :: t, S n' => h :: upd t n' v
  end.

(** checked array write *)
Definition wr {A} (l : list A) (i : Z) (v : A) : res (list A) :=
  if (i <? 0) || (Z.of_nat (length l) <=? i) then UB else Ok (upd l (Z.to_nat i) v).

Definition zlen {A} (l : list A) : Z := Z.of_nat (length l).

Definition is_byte (b : Z) : Prop := 0 <= b < 256.
Definition bytes (l : list Z) : Prop := Forall is_byte l.

Lemma upd_length {A} (l : list A) n v : length (upd l n v) = length l.
Proof. revert n; induction l as [|h t IH]; intros [|n]; simpl; auto. Qed.

Lemma upd_app_exact {A} (l1 : list A) x l2 v :
  upd (l1 ++ x :: l2) (length l1) v = l1 ++ v :: l2.
Proof. induction l1; simpl; congruence. Qed.

Lemma upd_split {A} (l : list A) n v :
  (n < length l)%nat -> upd l n v = firstn n l ++ v :: skipn (S n) l.
Proof.
  revert n; induction l as [|h t IH]; intros [|n] H; simpl in *; try lia; auto.
  f_equal. apply IH; lia.
Qed.

Lemma nth_error_upd_eq {A} (l : list A) n v :
  (n < length l)%nat -> nth_error (upd l n v) n = Some v.
Proof. revert n; induction l; intros [|n] H; simpl in *; try lia; auto. apply IHl; lia. Qed.

Lemma nth_error_upd_ne {A} (l : list A) n m v :
  n <> m -> nth_error (upd l n v) m = nth_error l m.
Proof.
  revert n m; induction l; intros [|n] [|m] H; simpl in *; auto; try congruence.
Qed.

Lemma zlen_nonneg {A} (l : list A) : 0 <= zlen l.
Proof. unfold zlen; lia. Qed.

Lemma zlen_app {A} (a b : list A) : zlen (a ++ b) = zlen a + zlen b.
Proof. unfold zlen; rewrite app_length; lia. Qed.

Lemma zlen_cons {A} (a : A) (b : list A) : zlen (a :: b) = 1 + zlen b.
Proof. unfold zlen; simpl length; lia. Qed.

Lemma zlen_nil (A : Type) : zlen (@nil A) = 0.
Proof. reflexivity. Qed.

Lemma rd_app_exact {A} (l1 : list A) x l2 : rd (l1 ++ x :: l2) (zlen l1) = Ok x.
Proof.
  unfold rd, zlen. destruct (_ <? 0) eqn:E; [lia|].
  rewrite Nat2Z.id, nth_error_app2 by lia. rewrite Nat.sub_diag. reflexivity.
Qed.

Lemma rd_app_exact' {A} (l1 : list A) x l2 i : i = zlen l1 -> rd (l1 ++ x :: l2) i = Ok x.
Proof. intros ->; apply rd_app_exact. Qed.

Lemma rd_nth {A} (l : list A) i d : 0 <= i < zlen l -> rd l i = Ok (nth (Z.to_nat i) l d).
Proof.
  intros H. unfold rd, zlen in *. destruct (i <? 0) eqn:E; [lia|].
  rewrite nth_error_nth' with (d := d) by lia. reflexivity.
Qed.

Lemma wr_ok {A} (l : list A) i v : 0 <= i < zlen l -> wr l i v = Ok (upd l (Z.to_nat i) v).
Proof.
  intros H. unfold wr, zlen in *.
  destruct (i <? 0) eqn:E1; [lia|]. destruct (_ <=? i) eqn:E2; [lia|]. reflexivity.
Qed.

Lemma bytes_app a b : bytes (a ++ b) <-> bytes a /\ bytes b.
Proof. apply Forall_app. Qed.

Lemma skipn_skipn {A} (l : list A) n m : skipn n (skipn m l) = skipn (n + m) l.
Proof.
  revert l. induction m; intros l; simpl.
  - rewrite Nat.add_0_r. reflexivity.
  - replace (n + S m)%nat with (S (n + m)) by lia. destruct l; simpl; [apply skipn_nil|apply IHm].
Qed.

Lemma zlen_firstn_le {A} (l : list A) k : (k <= length l)%nat -> zlen (firstn k l) = Z.of_nat k.
Proof. intros. unfold zlen. rewrite firstn_length. lia. Qed.

Lemma firstn_app_exact {A} (a b : list A) : firstn (length a) (a ++ b) = a.
Proof. rewrite firstn_app, Nat.sub_diag, firstn_all. simpl. apply app_nil_r. Qed.

Lemma skipn_app_exact {A} (a b : list A) : skipn (length a) (a ++ b) = b.
Proof. rewrite skipn_app, Nat.sub_diag, skipn_all. reflexivity. Qed.

Lemma to_nat_zlen {A} (l : list A) : Z.to_nat (zlen l) = length l.
Proof. unfold zlen. apply Nat2Z.id. Qed.
