(** C130: mecab_smpl *)
Require Import Verif.Common Verif.MecabModel Verif.MecabProps Verif.MecabSmplModel.
Import ListNotations.
Local Open Scope Z_scope.
Ltac Zify.zify_post_hook ::= idtac.

Lemma c_str_id w : ~ In 0 w -> c_str w = w.
Proof. induction w as [|c w IH]; intros N; cbn [c_str]; [reflexivity|]. destruct (Z.eqb_spec c 0) as [->|D]; [exfalso; apply N; now left|]. f_equal. apply IH. intros H. apply N. now right. Qed.
Lemma fields_in t : forall w c, In w (fields t) -> In c w -> In c t.
Proof.
  induction t as [|x t IH]; intros w c W C; cbn [fields] in W.
  - destruct W as [<-|[]]. destruct C.
  - destruct (x =? 32).
    + destruct W as [<-|W]; [destruct C|]. right. eauto.
    + destruct (fields t) as [|f r] eqn:F.
      * destruct W as [<-|[]]; destruct C as [->|[]]; now left.
      * destruct W as [<-|W]; [destruct C as [->|C]; [now left|right; apply (IH f); [now left|auto]]|right; apply (IH w); [now right|auto]].
Qed.
Lemma trim_in f c : In c (trim f) -> In c f.
Proof. induction f as [|x f IH]; cbn [trim]; [auto|]. destruct ((x =? 10) || (x =? 13) || (x =? 9)); [right; auto|auto]. Qed.
Lemma words_no_nul t : ~ In 0 t -> Forall (fun w => ~ In 0 w) (words t).
Proof.
  intros N. apply Forall_forall. intros w W C. unfold words in W. apply filter_In in W as [W _]. apply in_map_iff in W as (f & <- & F). apply N. apply (fields_in t f); [exact F|]. now apply trim_in.
Qed.

(** C130: for a file of 1 to 2^30 bytes the analyser gets exactly the bytes of the file, NUL bytes included, and the words of its output are
    printed, each followed by a space, and a newline *)
Theorem C130_words : forall wakati maps name more file t, maps name = Some file -> 0 < zlen file <= 2 ^ 30 -> wakati file = Some t -> ~ In 0 t ->
  main wakati maps true (name :: more) = Ok (0, concat (map (fun w => w ++ [32]) (words t)) ++ [10], Quiet).
Proof.
  intros wakati maps name more file t M B W N. unfold main. rewrite M. destruct (Z.ltb_spec (2 ^ 30) (zlen file)); [exfalso; lia|]. unfold Mecab.
  destruct (C93_parse wakati (fun _ => None) (mk_mecab 0 0 None) file (zlen file) file) as (m' & ->); [exists []; rewrite app_nil_r; split; [reflexivity|left; lia]|].
  cbn [bind]. rewrite W. cbn [option_map]. unfold print. do 4 f_equal. f_equal. pose proof (words_no_nul t N) as F. induction F as [|w l Hw _ IH]; cbn [map]; [reflexivity|]. rewrite c_str_id by auto. now rewrite IH.
Qed.
(** every other case but one ends with status 1, nothing on stdout and a message *)
Theorem C130_errors : forall wakati maps created,
  main wakati maps created [] = Ok (1, [], Usage) /\
  (forall name more, maps name = None -> main wakati maps created (name :: more) = Ok (1, [], Exception)) /\
  (forall name more file, maps name = Some file -> 2 ^ 30 < zlen file -> main wakati maps created (name :: more) = Ok (1, [], TooLarge (zlen file))) /\
  (forall name more file, maps name = Some file -> zlen file <= 2 ^ 30 -> main wakati maps false (name :: more) = Ok (1, [], Exception)).
Proof.
  intros wakati maps created. split; [reflexivity|]. split; [|split].
  - intros name more M. unfold main. now rewrite M.
  - intros name more file M L. unfold main. rewrite M. destruct (Z.ltb_spec (2 ^ 30) (zlen file)); [reflexivity|exfalso; lia].
  - intros name more file M L. unfold main. rewrite M. destruct (Z.ltb_spec (2 ^ 30) (zlen file)); [exfalso; lia|reflexivity].
Qed.
(** ** Finding: mecab_smpl ends with status 0 and says nothing when the analyser fails on the file *)
Theorem C130_silent_finding : forall wakati maps name more file, maps name = Some file -> 0 < zlen file <= 2 ^ 30 -> wakati file = None ->
  main wakati maps true (name :: more) = Ok (0, [], Quiet).
Proof.
  intros wakati maps name more file M B W. unfold main. rewrite M. destruct (Z.ltb_spec (2 ^ 30) (zlen file)); [exfalso; lia|]. unfold Mecab.
  destruct (C93_parse wakati (fun _ => None) (mk_mecab 0 0 None) file (zlen file) file) as (m' & ->); [exists []; rewrite app_nil_r; split; [reflexivity|left; lia]|]. cbn [bind]. now rewrite W.
Qed.
Example C130_case : main (fun s => Some (firstn 1 s ++ 32 :: skipn 1 s ++ [32; 10])) (fun _ => Some [97; 98; 99]) true [[102]; [103]] = Ok (0, [97; 32; 98; 99; 32; 10], Quiet).
Proof. reflexivity. Qed.
Print Assumptions C130_words.
Print Assumptions C130_errors.
Print Assumptions C130_silent_finding.
