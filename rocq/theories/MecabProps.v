(** C93: the MeCab wrapper hands the given text to the analyser, splits its output at spaces and walks over its nodes. *)
Require Import Verif.Common Verif.MecabModel.
Import ListNotations.
Local Open Scope Z_scope.

(** ** Specification *)
(** the text t is what str and strLen denote: strLen bytes, or with strLen 0 the bytes before the NUL *)
Definition given (str : list Z) (n : Z) (t : list Z) : Prop :=
  exists rest, str = t ++ rest /\ ((0 < n /\ zlen t = n) \/ (n = 0 /\ ~ In 0 t /\ exists r, rest = 0 :: r)).
(** the fields of a text between spaces; a field without its leading white space *)
Fixpoint fields (s : list Z) : list (list Z) :=
  match s with
  | [] => [[]]
  | c :: r => if c =? 32 then [] :: fields r else match fields r with f :: fs => (c :: f) :: fs | [] => [[c]] end
  end.
Fixpoint trim (f : list Z) : list Z := match f with c :: r => if (c =? 10) || (c =? 13) || (c =? 9) then trim r else f | [] => [] end.
Definition words (s : list Z) : list (list Z) := filter (fun w => negb (Nat.eqb (length w) 0)) (map trim (fields s)).
(** calls and where the object stands after them: nowhere, at node k of the analysis of a text, or at nodes that are gone *)
Inductive call := Parse (str : list Z) (n : Z) | Set_ (str : list Z) (n : Z) | Next.
Inductive place := Nowhere | At (t : list Z) (k : nat) | Gone.

Section Spec.
Variables (wakati : list Z -> option (list Z)) (nodes : list Z -> option (list node)).
Inductive moves : place -> call -> place -> Prop :=
| M_parse0 s n t : given s n t -> moves Nowhere (Parse s n) Nowhere
| M_parse p s n t : given s n t -> p <> Nowhere -> moves p (Parse s n) Gone
| M_set p s n t : given s n t -> moves p (Set_ s n) (At t 0)
| M_next t l k : nodes t = Some l -> (k < length l)%nat -> moves (At t k) Next (At t (S k)).
Inductive history : place -> list call -> place -> Prop :=
| H_nil p : history p [] p
| H_cons p c q cs r : moves p c q -> history q cs r -> history p (c :: cs) r.
Definition exec (m : mecab) (c : call) : res mecab :=
  match c with
  | Parse s n => let! (_, m) := parse wakati m s n in Ok m
  | Set_ s n => set nodes m s n
  | Next => next m
  end.
Fixpoint run (m : mecab) (cs : list call) : res mecab := match cs with [] => Ok m | c :: cs => let! m := exec m c in run m cs end.

(** ** Proofs *)
Lemma strlen_nul t r : ~ In 0 t -> strlen (t ++ 0 :: r) = Some (zlen t).
Proof. intros N. induction t as [|c t IH]; cbn [app strlen]; [reflexivity|]. destruct (Z.eqb_spec c 0); [subst; destruct N; now left|]. rewrite IH by (intros I; apply N; now right). cbn [option_map]. f_equal. unfold zlen. cbn [length]. lia. Qed.
Lemma input_ok str n t : given str n t -> input str n = Ok t.
Proof.
  intros (rest & -> & H). unfold input.
  assert (G : (if zlen t <=? zlen (t ++ rest) then Ok (firstn (Z.to_nat (zlen t)) (t ++ rest)) else UB) = Ok t).
  { destruct (Z.leb_spec (zlen t) (zlen (t ++ rest))) as [|L]; [|unfold zlen in L; rewrite app_length in L; lia]. f_equal. unfold zlen. rewrite Nat2Z.id, firstn_app, firstn_all, Nat.sub_diag. cbn. apply app_nil_r. }
  destruct H as [(P & <-)|(-> & N & r & ->)].
  - destruct (Z.eqb_spec (zlen t) 0); [lia|]. exact G.
  - cbn [Z.eqb]. rewrite strlen_nul by auto. exact G.
Qed.
Lemma fields_ne s : fields s <> [].
Proof. destruct s as [|c r]; cbn; [discriminate|]. destruct (c =? 32); [discriminate|]. destruct (fields r); discriminate. Qed.
Lemma strchr_fields p : match strchr_sp p with None => fields p = [p] | Some (w, q) => fields p = w :: fields q /\ (length q < length p)%nat end.
Proof.
  induction p as [|c r IH]; cbn [strchr_sp fields]; [reflexivity|]. destruct (c =? 32); [cbn; split; [reflexivity|lia]|].
  destruct (strchr_sp r) as [(w & q)|]; cbn [option_map].
  - destruct IH as (-> & L). split; [reflexivity|cbn; lia].
  - rewrite IH. reflexivity.
Qed.
Lemma split_words : forall fuel p out, (length p < fuel)%nat -> split_loop fuel p out = Ok (out ++ words p).
Proof.
  induction fuel as [|fuel IH]; intros p out L; [lia|]. cbn [split_loop]. destruct p as [|c r]; [cbn; now rewrite app_nil_r|].
  destruct (Z.eqb_spec c 32) as [->|NS].
  - cbn [orb]. rewrite IH by (cbn in L; lia). unfold words. reflexivity.
  - cbn [orb]. destruct ((c =? 10) || (c =? 13) || (c =? 9)) eqn:WS.
    + cbn in L. rewrite IH by lia. f_equal. f_equal. unfold words. cbn [fields]. destruct (Z.eqb_spec c 32); [lia|]. pose proof (fields_ne r) as NE. destruct (fields r) as [|f fs]; [congruence|]. cbn [map trim]. rewrite WS. reflexivity.
    + pose proof (strchr_fields (c :: r)) as S. assert (T : forall w, (exists w', w = c :: w') -> trim w = w) by (intros w (w' & ->); cbn [trim]; now rewrite WS).
      destruct (strchr_sp (c :: r)) as [(w & q)|] eqn:E.
      * destruct S as (S & LQ). rewrite IH by lia. rewrite <- app_assoc. f_equal. f_equal. unfold words. rewrite S. cbn [map].
        assert (exists w', w = c :: w') as W. { cbn [strchr_sp] in E. destruct (Z.eqb_spec c 32); [lia|]. destruct (strchr_sp r) as [(a & b)|]; [|discriminate]. cbn in E. injection E as <- _. eauto. }
        rewrite T by auto. destruct W as (w' & ->). reflexivity.
      * unfold words. rewrite S. cbn [map]. rewrite T by eauto. reflexivity.
Qed.
(** ** C93: parse appends the words of the analyser's output for exactly the given text *)
Theorem C93_parse m str n t : given str n t -> exists m', parse wakati m str n = Ok (option_map words (wakati t), m').
Proof. intros G. unfold parse. rewrite (input_ok _ _ _ G). cbn [bind]. destruct (wakati t) as [p|]; [|eexists; reflexivity]. rewrite split_words by lia. cbn. eexists. reflexivity. Qed.

Definition stands (m : mecab) (p : place) : Prop :=
  deleted m = 0 /\ match p with
  | Nowhere => node_ m = None
  | At t k => node_ m = option_map (fun l => (analyses m, skipn k l)) (nodes t)
  | Gone => True
  end.
Lemma skipn_nth {A} (l : list A) k : match nth_error l k with Some x => exists r, skipn k l = x :: r | None => skipn k l = [] end.
Proof. revert k. induction l as [|x l IH]; intros [|k]; cbn; eauto. apply IH. Qed.
Lemma skipn_S {A} (l : list A) k : tl (skipn k l) = skipn (S k) l.
Proof. revert k. induction l as [|x l IH]; intros [|k]; cbn; auto. apply IH. Qed.
Lemma exec_stands m p c q : stands m p -> moves p c q -> exists m', exec m c = Ok m' /\ stands m' q.
Proof.
  intros (D & S) M. destruct M as [s n t G|p s n t G NP|p s n t G|t l k E L]; cbn [exec].
  - unfold parse. rewrite (input_ok _ _ _ G). cbn [bind]. destruct (wakati t) as [o|]; [rewrite split_words by lia|]; cbn [bind]; eexists; (split; [reflexivity|]); split; auto.
  - unfold parse. rewrite (input_ok _ _ _ G). cbn [bind]. destruct (wakati t) as [o|]; [rewrite split_words by lia|]; cbn [bind]; eexists; (split; [reflexivity|]); split; cbn; auto.
  - unfold set. rewrite (input_ok _ _ _ G). cbn [bind]. eexists. split; [reflexivity|]. split; [auto|]. cbn [node_ analyses]. reflexivity.
  - cbn in S. rewrite E in S. cbn in S. unfold next, current. rewrite S. pose proof (skipn_nth l k) as N. destruct (nth_error l k) eqn:EN; [|apply nth_error_None in EN; lia].
    destruct N as (r & N). rewrite N, Z.eqb_refl. cbn [bind]. eexists. split; [reflexivity|]. split; [auto|]. cbn [node_ analyses option_map]. rewrite E. cbn [option_map]. rewrite <- skipn_S, N. reflexivity.
Qed.
Lemma run_stands cs : forall m p q, stands m p -> history p cs q -> exists m', run m cs = Ok m' /\ stands m' q.
Proof.
  induction cs as [|c cs IH]; intros m p q S H; inversion H; subst; cbn [run]; [eauto|].
  destruct (exec_stands _ _ _ _ S ltac:(eassumption)) as (m1 & -> & S1). cbn [bind]. eapply IH; eauto.
Qed.
(** the bytes of the feature up to its NUL *)
Definition noun (n : node) : bool := (2 <=? len n) && match feature n with a :: b :: c :: _ => (a =? 229) && (b =? 144) && (c =? 141) | _ => false end.
(** ** C93: after any history of calls the object shows the node it stands at *)
Theorem C93_history cs p : history Nowhere cs p ->
  exists m0 m, Mecab true = Ok m0 /\ run m0 cs = Ok m /\
    (p = Nowhere -> isEnd m = Ok true) /\
    (forall t k, p = At t k -> nodes t = None -> isEnd m = Ok true) /\
    (forall t k l, p = At t k -> nodes t = Some l -> nth_error l k = None -> isEnd m = Ok true) /\
    (forall t k l n, p = At t k -> nodes t = Some l -> nth_error l k = Some n ->
       isEnd m = Ok (stat n =? 3) /\ getPos m = Ok (surface n) /\ getSize m = Ok (len n) /\ (In 0 (feature n) -> isNoun m = Ok (noun n))).
Proof.
  intros H. exists (mk_mecab 0 0 None). destruct (run_stands cs (mk_mecab 0 0 None) Nowhere p) as (m & E & D & S); [split; reflexivity|auto|]. exists m. split; [reflexivity|]. split; [auto|]. split; [|split; [|split]].
  - intros ->. unfold isEnd, is_null. rewrite S. reflexivity.
  - intros t k -> N. cbn in S. rewrite N in S. unfold isEnd, is_null. rewrite S. reflexivity.
  - intros t k l -> N E'. cbn in S. rewrite N in S. pose proof (skipn_nth l k) as SK. rewrite E' in SK. cbn in S. rewrite SK in S. unfold isEnd, is_null. rewrite S. reflexivity.
  - intros t k l n -> N E'. cbn in S. rewrite N in S. pose proof (skipn_nth l k) as SK. rewrite E' in SK. destruct SK as (r & SK). cbn in S. rewrite SK in S.
    assert (C : current m = Ok n) by (unfold current; rewrite S, Z.eqb_refl; reflexivity).
    unfold isEnd, is_null, getPos, getSize, isNoun. rewrite S, C. cbn [bind]. repeat split; auto.
    intros I0. unfold noun. rewrite Z.leb_antisym. destruct (len n <? 2); [reflexivity|]. cbn [negb andb].
    destruct (feature n) as [|a f]; [destruct I0|]. change (rd (a :: f) 0) with (Ok a). cbn [bind]. destruct (Z.eqb_spec a 229); cbn [negb andb]; [|destruct f as [|b [|c f]]; reflexivity].
    destruct f as [|b f]; [destruct I0 as [I0|[]]; lia|]. change (rd (a :: b :: f) 1) with (Ok b). cbn [bind]. destruct (Z.eqb_spec b 144); cbn [negb andb]; [|destruct f; reflexivity].
    destruct f as [|c f]; [destruct I0 as [I0|[I0|[]]]; lia|]. change (rd (a :: b :: c :: f) 2) with (Ok c). reflexivity.
Qed.
(** the documented loop *)
Fixpoint walk (fuel : nat) (m : mecab) : res (list (Z * Z)) :=
  match fuel with
  | O => Fuel
  | S fuel => let! e := isEnd m in if (e : bool) then Ok [] else
      let! p := getPos m in let! s := getSize m in let! m := next m in let! r := walk fuel m in Ok ((p, s) :: r)
  end.
(** ** C93: set and the loop visit every node before the EOS node, in order *)
Theorem C93_walk m str n t pre e rest : deleted m = 0 -> given str n t -> nodes t = Some (pre ++ e :: rest) -> stat e = 3 -> Forall (fun n => stat n <> 3) pre ->
  exists m', set nodes m str n = Ok m' /\ walk (S (length pre)) m' = Ok (map (fun n => (surface n, len n)) pre).
Proof.
  intros D G N Ee Fp. unfold set. rewrite (input_ok _ _ _ G). cbn [bind]. rewrite N. cbn [option_map]. eexists. split; [reflexivity|]. generalize (analyses m + 1). intros g. clear - Ee Fp.
  induction pre as [|x pre IH]; [cbn [length app map]|cbn [length app map]].
  - cbn [walk]. unfold isEnd, is_null, current. cbn [node_]. rewrite Z.eqb_refl. cbn [bind]. unfold EOS. rewrite Ee. reflexivity.
  - inversion Fp as [|? ? Hx Fp']. subst. specialize (IH Fp'). set (f := S (length pre)) in *. clearbody f. cbn [walk]. unfold isEnd, is_null, getPos, getSize, next, current. cbn [node_ analyses]. rewrite Z.eqb_refl. cbn [bind deleted option_map tl node_ analyses]. destruct (Z.eqb_spec (stat x) EOS); [contradiction|].
    rewrite IH. reflexivity.
Qed.
(** ** C93: a std::string is analysed whole, whatever bytes it holds *)
Theorem C93_string m s : exists m', set_string nodes m s = Ok m' /\ node_ m' = option_map (fun l => (analyses m', l)) (nodes s).
Proof.
  unfold set_string, set. rewrite (input_ok _ _ s); [cbn [bind]; eexists; split; reflexivity|]. exists [0]. split; [reflexivity|].
  destruct s as [|c s]; [right; split; [reflexivity|split; [intros []|eauto]]|left; unfold zlen; cbn [length]; lia].
Qed.
(** ** C93: the destructor deletes the tagger once; a failed construction owns nothing *)
Theorem C93_owned cs p : history Nowhere cs p -> Mecab false = Exn /\ exists m0 m, Mecab true = Ok m0 /\ run m0 cs = Ok m /\ exists m', dtor m = Ok m' /\ deleted m' = 1.
Proof.
  intros H. split; [reflexivity|]. exists (mk_mecab 0 0 None). destruct (run_stands cs (mk_mecab 0 0 None) Nowhere p) as (m & E & D & S); [split; reflexivity|auto|]. exists m. split; [reflexivity|]. split; [auto|].
  unfold dtor. rewrite D. eexists. split; reflexivity.
Qed.
(** ** Finding: an object can be copied although it owns its tagger; the second destructor deletes the tagger again *)
Theorem C93_copy_finding m m1 : deleted m = 0 -> dtor m = Ok m1 -> dtor m1 = UB.
Proof. unfold dtor. intros ->. cbn. intros E. injection E as <-. reflexivity. Qed.
(** ** Finding: parse between set and the loop leaves the object at nodes that are gone *)
Theorem C93_parse_finding m s n t l x s' n' t' : given s n t -> nodes t = Some (x :: l) -> given s' n' t' ->
  exists m1 m2 w, set nodes m s n = Ok m1 /\ parse wakati m1 s' n' = Ok (w, m2) /\ isEnd m2 = UB.
Proof.
  intros G N G'. unfold set. rewrite (input_ok _ _ _ G). cbn [bind]. rewrite N. eexists. destruct (C93_parse (mk_mecab (deleted m) (analyses m + 1) (option_map (fun l => (analyses m + 1, l)) (Some (x :: l)))) s' n' t' G') as (m2 & E).
  exists m2. eexists. split; [reflexivity|]. split; [exact E|]. unfold parse in E. rewrite (input_ok _ _ _ G') in E. cbn [bind] in E.
  assert (M : m2 = mk_mecab (deleted m) (analyses m + 1 + 1) (Some (analyses m + 1, x :: l))).
  { destruct (wakati t') as [o|]; [rewrite split_words in E by lia|]; cbn in E; congruence. }
  rewrite M. unfold isEnd, is_null, current. cbn [node_ analyses]. destruct (Z.eqb_spec (analyses m + 1) (analyses m + 1 + 1)); [lia|reflexivity].
Qed.
End Spec.

(** ** Finding: a length of 0 is not an empty text: the bytes up to a NUL are analysed, and without one the read leaves the buffer *)
Theorem C93_zero_finding : input [97; 98; 0] 0 = Ok [97; 98] /\ input [97; 98] 0 = UB.
Proof. split; reflexivity. Qed.
(** ** Finding: a noun of one byte ("5") is not reported as a noun *)
Definition five : node := mk_node 0 0 1 [229; 144; 141; 232; 169; 158; 0].
Theorem C93_short_finding : isNoun (mk_mecab 0 1 (Some (1, [five]))) = Ok false.
Proof. reflexivity. Qed.
(** ** Finding: a newline inside a field stays in the word although leading ones are removed *)
Theorem C93_newline_finding : words [97; 10; 98; 32; 10; 99; 32; 10] = [[97; 10; 98]; [99]].
Proof. reflexivity. Qed.

(** instance: every byte a node between BOS and EOS *)
Definition nodes1 (t : list Z) : option (list node) :=
  Some (mk_node 2 0 0 [66; 79; 83; 0] :: map (fun k => mk_node 0 (Z.of_nat k) 1 [120; 0]) (seq 0 (length t)) ++ [mk_node 3 (zlen t) 0 [69; 0]]).
Definition wakati1 (t : list Z) : option (list Z) := Some (concat (map (fun c => [c; 32]) t) ++ [10]).
Example C93_example : exists m0 m1 m2, Mecab true = Ok m0 /\ parse wakati1 m0 [97; 98; 0; 5] 0 = Ok (Some [[97]; [98]], m1) /\ set nodes1 m1 [97; 98; 99] 2 = Ok m2 /\ walk 9 m2 = Ok [(0, 0); (0, 1); (1, 1)].
Proof. eexists. eexists. eexists. split; [reflexivity|]. split; [reflexivity|]. split; reflexivity. Qed.
Example C93_history_example : history nodes1 Nowhere [Set_ [97; 98] 2; Next; Next; Set_ [97; 0] 0; Next] (At [97] 1).
Proof.
  eapply H_cons; [apply (M_set _ _ _ _ [97; 98]); exists []; split; [reflexivity|left; split; [lia|reflexivity]]|].
  eapply H_cons; [eapply M_next; [reflexivity|cbn; lia]|]. eapply H_cons; [eapply M_next; [reflexivity|cbn; lia]|].
  eapply H_cons; [apply (M_set _ _ _ _ [97]); exists [0]; split; [reflexivity|right; split; [reflexivity|split; [cbn; lia|exists []; reflexivity]]]|].
  eapply H_cons; [eapply M_next; [reflexivity|cbn; lia]|]. constructor.
Qed.
Print Assumptions C93_parse. Print Assumptions C93_history. Print Assumptions C93_walk. Print Assumptions C93_owned. Print Assumptions C93_string. Print Assumptions C93_copy_finding. Print Assumptions C93_parse_finding. Print Assumptions C93_zero_finding. Print Assumptions C93_short_finding. Print Assumptions C93_newline_finding.
