(** C95: cybozu::format stores exactly the formatted text, leaves the string alone when it fails and frees what libc allocated. *)
Require Import Verif.Common Verif.FormatModel.
Import ListNotations.
Local Open Scope Z_scope.

Definition count (e : event) (l : list event) : nat := length (filter (fun x => match e, x with Malloc, Malloc | Free, Free | VaStart, VaStart | VaEnd, VaEnd => true | _, _ => false end) l).
Definition ended (o : outcome) : end_ := fst (fst o).
Definition string_ (o : outcome) : list Z := snd (fst o).
Definition trace (o : outcome) : list event := snd o.

Section Props.
Variable render : list Z -> option (list Z).
(** ** C95: the text, of any bytes and also when the arguments point into the destination; on failure the string is as before *)
Theorem C95_posix str nomem : let o := format (fun s => vformat_posix render s nomem) str in
  (ended o = Returns <-> nomem = false /\ exists t, render str = Some t /\ zlen t <= 2 ^ 31 - 1) /\
  (ended o = Returns -> render str = Some (string_ o)) /\
  (ended o <> Returns -> string_ o = str /\ (ended o = Throws \/ ended o = BadAlloc)) /\
  (ended o = BadAlloc -> nomem = true) /\
  count Free (trace o) = count Malloc (trace o) /\ (count Malloc (trace o) <= 1)%nat /\ (forall a b, trace o = a ++ Free :: b -> count Malloc a = 1%nat).
Proof.
  change (2 ^ 31 - 1) with INT_MAX.
  assert (H : forall e l a b, (forall a b, l = a ++ Free :: b -> count Malloc a = 1%nat) -> e <> Free -> e <> Malloc -> e :: l = a ++ Free :: b -> count Malloc a = 1%nat).
  { intros e l [|x a] b H N M E; cbn in E; injection E as -> E; [congruence|]. unfold count. cbn [filter]. destruct x; try congruence; eapply H; eauto. }
  assert (E2 : forall l a b, Malloc :: Free :: l = a ++ Free :: b -> ~ In Free l -> count Malloc a = 1%nat).
  { intros l [|x [|y a]] b E N; cbn in E; inversion E; subst; [reflexivity|]. destruct N. apply in_or_app. right. now left. }
  unfold format, vformat_posix. destruct (render str) as [t|] eqn:R; [destruct (Z.ltb_spec INT_MAX (zlen t)); [|destruct nomem]|]; cbn [ended string_ trace fst snd app];
    repeat split; try discriminate; try congruence; intros; auto.
  all: try (match goal with HH : _ /\ _ |- _ => destruct HH as (? & ? & HH & ?); try congruence; injection HH as <-; lia end).
  all: try (match goal with E : [VaStart] = ?a ++ _ |- _ => destruct a as [|? [|]]; discriminate E end).
  all: try (exists t; split; [reflexivity|lia]).
  all: match goal with E : VaStart :: _ = _ |- _ => refine (H _ _ _ _ _ _ _ E); [|discriminate|discriminate]; intros; eapply E2; [eassumption|cbn; intuition discriminate] end.
Qed.
(** ** C95: the MSVC form stores the same text when the arguments do not point into the destination *)
Theorem C95_msvc str t : (forall s, render s = Some t) -> zlen t < 2 ^ 31 - 1 ->
  format (fun s => vformat_msvc render s false false) str = (Returns, t, [VaStart; VaEnd]).
Proof.
  change (2 ^ 31 - 1) with INT_MAX. intros R L. unfold format, vformat_msvc. rewrite R. destruct (Z.leb_spec INT_MAX (zlen t)); [lia|]. rewrite R. destruct (Z.ltb_spec (zlen t) (zlen t)); [lia|].
  cbn [app]. f_equal. f_equal. unfold resize. destruct (Z.leb_spec (zlen t) (zlen (t ++ 0 :: skipn (length t + 1) (if zlen t + 1 <=? zlen str then firstn (Z.to_nat (zlen t + 1)) str else str ++ repeat 0 (Z.to_nat (zlen t + 1 - zlen str)))))) as [|G].
  - unfold zlen. rewrite Nat2Z.id, firstn_app, firstn_all, Nat.sub_diag. cbn. apply app_nil_r.
  - unfold zlen in G. rewrite app_length in G. cbn [length] in G. lia.
Qed.
(** ** C95: the form that returns a string *)
Theorem C95_new t : (forall s, render s = Some t) -> zlen t < 2 ^ 31 - 1 ->
  format_new (fun s => vformat_posix render s false) = (Returns, t, [VaStart; Malloc; Free; VaEnd]) /\ format_new (fun s => vformat_msvc render s false false) = (Returns, t, [VaStart; VaEnd]).
Proof. change (2 ^ 31 - 1) with INT_MAX. intros R L. split; [|apply C95_msvc; auto]. unfold format_new, format, vformat_posix. rewrite R. destruct (Z.ltb_spec INT_MAX (zlen t)); [lia|]. reflexivity. Qed.
(** ** Finding: when vformat throws va_end is not called *)
Theorem C95_va_end_finding str : ended (format (fun s => vformat_posix render s true) str) <> Returns /\ trace (format (fun s => vformat_posix render s true) str) <> [] /\ count VaEnd (trace (format (fun s => vformat_posix render s true) str)) = 0%nat.
Proof. unfold format, vformat_posix. destruct (render str) as [t|]; [destruct (INT_MAX <? zlen t)|]; repeat split; discriminate. Qed.
End Props.
(** format(s, "%s!", s.c_str()): the C string in s, and '!' *)
Fixpoint cstr (s : list Z) : list Z := match s with [] => [] | c :: r => if c =? 0 then [] else c :: cstr r end.
Definition self (s : list Z) : option (list Z) := Some (cstr s ++ [33]).
(** ** Finding: formatting a string into itself works with vasprintf and is undefined with MSVC *)
Theorem C95_alias_finding : format (fun s => vformat_posix self s false) [97; 98] = (Returns, [97; 98; 33], [VaStart; Malloc; Free; VaEnd])
  /\ ended (format (fun s => vformat_msvc self s false true) [97; 98]) = Undefined.
Proof. split; reflexivity. Qed.
(** ** Finding: when the second formatting of the MSVC form fails the string has lost its contents *)
Theorem C95_clobber_finding : let render s := if zlen s =? 3 then Some [120] else None in
  format (fun s => vformat_msvc render s false false) [97; 98; 99] = (Throws, [97; 98], [VaStart]).
Proof. reflexivity. Qed.
Example C95_example : format (fun s => vformat_posix (fun _ => Some [49; 0; 50]) s false) [97] = (Returns, [49; 0; 50], [VaStart; Malloc; Free; VaEnd])
  /\ format (fun s => vformat_msvc (fun _ => Some [49; 0; 50]) s false false) [97] = (Returns, [49; 0; 50], [VaStart; VaEnd]).
Proof. split; reflexivity. Qed.
Print Assumptions C95_posix. Print Assumptions C95_msvc. Print Assumptions C95_new. Print Assumptions C95_va_end_finding. Print Assumptions C95_alias_finding. Print Assumptions C95_clobber_finding.
