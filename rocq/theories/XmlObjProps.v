(** C108: the objects of minixml.hpp: what a MiniXml holds after any calls of parse, and that every node is deleted once *)
Require Import Verif.Common Verif.ConfigModel Verif.ConfigProps Verif.Text Verif.XmlModel Verif.XmlProps Verif.XmlObjModel.
Require Import Permutation.
From Coq Require String.
Import ListNotations.
Local Open Scope Z_scope.

(** ** Specification *)
(** the text starts like an XML document *)
Definition starts (s : list Z) : Prop := exists sp r, s = sp ++ str "<?xml" ++ r /\ spaces sp /\ (r <> [] -> ~ name_char (hd 0 r)).
(** the addresses a .. b-1 *)
Definition range (a b : Z) : list Z := map (fun i => a + Z.of_nat i) (seq 0 (Z.to_nat (b - a))).
(** the addresses of a tree *)
Fixpoint ids (n : onode) : list Z := match n with ONode id _ _ _ ch => id :: concat (map ids ch) end.

Lemma range_nil a : range a a = []. Proof. unfold range. rewrite Z.sub_diag. reflexivity. Qed.
Lemma range_cons a b : a < b -> range a b = a :: range (a + 1) b.
Proof.
  intros H. unfold range. replace (Z.to_nat (b - a)) with (S (Z.to_nat (b - (a + 1)))) by lia. cbn [seq map].
  rewrite Z.add_0_r. f_equal. rewrite <- seq_shift, map_map. apply List.map_ext. intros i. lia.
Qed.
Lemma range_app a b c : a <= b <= c -> range a c = range a b ++ range b c.
Proof.
  intros H. unfold range. replace (Z.to_nat (c - a)) with (Z.to_nat (b - a) + Z.to_nat (c - b))%nat by lia.
  rewrite seq_app, map_app. f_equal. cbn [Nat.add]. rewrite <- (Nat.add_0_r (Z.to_nat (b - a))) at 1.
  generalize (Z.to_nat (c - b)) as k, O as j. induction k as [|k IH]; intros j; [reflexivity|]. cbn [seq map]. f_equal; [lia|].
  rewrite <- (IH (S j)). f_equal. f_equal. lia.
Qed.
Lemma range_in a b x : In x (range a b) <-> a <= x < b.
Proof.
  unfold range. rewrite in_map_iff. split.
  - intros (i & <- & I). apply in_seq in I. lia.
  - intros H. exists (Z.to_nat (x - a)). split; [lia|]. apply in_seq. lia.
Qed.
Lemma range_nodup a b : NoDup (range a b).
Proof. unfold range. apply FinFun.Injective_map_NoDup; [intros i j H; lia|apply seq_NoDup]. Qed.
Lemma range_len a b : a <= b -> zlen (range a b) = b - a.
Proof. intros H. unfold zlen, range. rewrite map_length, seq_length. lia. Qed.

(** ** Attributes *)
(** const operator[] is the last value given to the key, and throws if there was none; query does not throw *)
Theorem C108_attr : forall kvs m k, map_of kvs m ->
  attr_query m k = last_value k kvs /\
  match last_value k kvs with Some v => attr_get m k = Ok v | None => attr_get m k = Exn end.
Proof.
  intros kvs m k [_ F]. unfold attr_get, attr_query. rewrite F. split; [reflexivity|]. destruct (last_value k kvs); reflexivity.
Qed.
(** operator[] of a non-const Attributes adds an empty value for a new key and changes nothing else *)
Theorem C108_attr_at : forall kvs m k, map_of kvs m ->
  let (m', v) := attr_at m k in
  v = match last_value k kvs with Some x => x | None => [] end /\
  forall k', attr_query m' k' = match last_value k' kvs with Some x => Some x | None => if list_eq_dec Z.eq_dec k' k then Some [] else None end.
Proof.
  intros kvs m k [S F]. unfold attr_at, attr_query.
  assert (G : forall k', mfind k' (minsert k [] m) = match last_value k' kvs with Some x => Some x | None => if list_eq_dec Z.eq_dec k' k then Some [] else None end).
  { intros k'. rewrite minsert_find by exact S. rewrite !F. unfold str_eq. destruct (list_eq_dec Z.eq_dec k' k) as [->|N]; destruct (last_value _ kvs); reflexivity. }
  split; [|exact G]. rewrite G. destruct (last_value k kvs); [reflexivity|]. destruct (list_eq_dec Z.eq_dec k k); [reflexivity|contradiction].
Qed.

(** ** The tree *)
Lemma onode_ind2 (P : onode -> Prop) : (forall id n m c ch, Forall P ch -> P (ONode id n m c ch)) -> forall t, P t.
Proof.
  intros H. fix F 1. intros [id n m c ch]. apply H. induction ch as [|x r IH]; constructor; [apply F|exact IH].
Qed.
Lemma destroy_ids n : Permutation (destroy n) (ids n).
Proof.
  induction n as [id n m c ch IH] using onode_ind2. cbn [destroy ids]. rewrite Permutation_app_comm. cbn [app]. constructor.
  induction IH as [|x r H _ IH]; [reflexivity|]. cbn [map concat]. apply Permutation_app; assumption.
Qed.
Definition idsl (l : list onode) : list Z := concat (map ids l).
Lemma idsl_app a b : idsl (a ++ b) = idsl a ++ idsl b. Proof. unfold idsl. rewrite map_app, concat_app. reflexivity. Qed.
Lemma change_last_eq child next n a c ch : change_last (appendChild next child n a) c ch = child ++ [ONode next n a c ch].
Proof. unfold change_last, appendChild. rewrite rev_app_distr. cbn [rev app]. rewrite rev_involutive. reflexivity. Qed.
Lemma obj_node_spec fuel : forall next name content child s,
  match obj_node fuel next name content child s with
  | (r, next', content', child') =>
      next <= next' /\ Permutation (idsl child') (idsl child ++ range next next') /\
      match parseNode fuel name content (map erase child) s with
      | Ok (c, ch, s') => r = Ok s' /\ content' = c /\ map erase child' = ch
      | Exn => r = Exn
      | UB => r = UB
      | Fuel => r = Fuel
      end
  end.
Proof.
  induction fuel as [|f IH]; intros next name content child s; cbn [obj_node parseNode].
  { split; [lia|]. split; [rewrite range_nil, app_nil_r; reflexivity|reflexivity]. }
  assert (STAY : forall (X : Prop), X -> next <= next /\ Permutation (idsl child) (idsl child ++ range next next) /\ X).
  { intros X x. split; [lia|]. split; [rewrite range_nil, app_nil_r; reflexivity|exact x]. }
  destruct (skipSpace s) as [|c0 r0] eqn:ES; [apply STAY; reflexivity|]. cbn [query bind].
  destruct (if c0 =? 60 then (content, c0 :: r0) else parseContent (c0 :: r0)) as [content' s'] eqn:EC.
  destruct s' as [|c1 r1]; [apply STAY; reflexivity|].
  destruct (parseTag (c1 :: r1)) as [[[[ty n] attr] s2]| | |]; cbn [bind]; try (apply STAY; reflexivity).
  destruct ty.
  - (* BeginTag *)
    pose proof (IH (next + 1) n [] [] s2) as A. destruct (obj_node f (next + 1) n [] [] s2) as [[[r n1] cc] ch1].
    destruct A as (L1 & P1 & E1). rewrite change_last_eq. cbn [idsl map concat app] in P1. cbn [map] in E1.
    assert (PN : Permutation (idsl (child ++ [ONode next n attr cc ch1])) (idsl child ++ range next n1)).
    { rewrite idsl_app. apply Permutation_app_head. unfold idsl at 1. cbn [map concat ids]. rewrite app_nil_r. rewrite range_cons by lia. constructor. exact P1. }
    destruct (parseNode f n [] [] s2) as [[[c2 ch2] s3]| | |]; cbn [bind]; [|subst r; (split; [lia|]; split; [exact PN|reflexivity])..].
    destruct E1 as (-> & -> & <-).
    pose proof (IH n1 name content' (child ++ [ONode next n attr c2 ch1]) s3) as B.
    destruct (obj_node f n1 name content' (child ++ [ONode next n attr c2 ch1]) s3) as [[[r n2] c3] ch3].
    destruct B as (L2 & P2 & E2). split; [lia|]. split; [rewrite P2, PN, <- app_assoc, <- range_app by lia; reflexivity|].
    rewrite map_app in E2. exact E2.
  - destruct (str_eq name n); apply STAY; [split; [reflexivity|split; reflexivity]|reflexivity].
  - pose proof (IH (next + 1) name content' (appendChild next child n attr) s2) as B.
    destruct (obj_node f (next + 1) name content' (appendChild next child n attr) s2) as [[[r n2] c3] ch3].
    destruct B as (L2 & P2 & E2). split; [lia|]. split.
    + rewrite P2. unfold appendChild. rewrite idsl_app, <- app_assoc. apply Permutation_app_head. rewrite (range_cons next n2) by lia. reflexivity.
    + unfold appendChild in E2. rewrite map_app in E2. exact E2.
Qed.
Lemma starts_word s : starts s <-> fst (getWord isName (skipSpace s)) = str "<?xml".
Proof.
  split.
  - intros (sp & r & -> & S & H).
    assert (N : ~ space (hd 0 (str "<?xml" ++ r))) by (apply isSpace_false; reflexivity).
    rewrite skipSpace_app by assumption. rewrite getWord_app; [reflexivity|repeat constructor|].
    intros NE. specialize (H NE). destruct (isName (hd 0 r)) eqn:E; [|reflexivity]. apply isName_iff in E. contradiction.
  - intros E. destruct (skipSpace_spec s) as (sp & E1 & S & _). destruct (getWord_spec isName (skipSpace s)) as (w & t & E2 & E3 & _ & F).
    rewrite E2 in E. cbn [fst] in E. subst w. exists sp, t. split; [rewrite E1 at 1; rewrite E3; reflexivity|]. split; [exact S|].
    intros NE C. apply isName_iff in C. rewrite (F NE) in C. discriminate.
Qed.
Lemma parse_spec torn next o s :
  match obj_parse torn next o s with
  | (r, next', o') =>
      (starts s -> next < next' /\ exists root, o' = Some root /\ Permutation (ids root) (range next next')) /\
      (~ starts s -> r = Exn /\ next' = next /\ o' = o) /\
      match parse s with Ok (_, root, _) => r = Ok tt /\ get o' = Ok root | Exn => r = Exn | _ => False end
  end.
Proof.
  pose proof (C46_safe s) as SAFE. unfold obj_parse. unfold parse, readHeader in *.
  pose proof (starts_word s) as SW. destruct (getWord isName (skipSpace s)) as [w s1]. cbn [fst] in SW.
  destruct (str_eq w (str "<?xml")) eqn:EW.
  2: { cbn [negb]. cbn [negb bind] in SAFE. split; [|split; [auto|reflexivity]].
       intros ST. apply SW in ST. subst w. unfold str_eq in EW. destruct (list_eq_dec Z.eq_dec (str "<?xml") (str "<?xml")); [discriminate|contradiction]. }
  apply str_eq_iff in EW. cbn [negb] in *. assert (ST : starts s) by (apply SW; exact EW).
  assert (ONE : forall nm a, next < next + 1 /\ exists root, Some (ONode next nm a [] []) = Some root /\ Permutation (ids root) (range next (next + 1))).
  { intros nm a. split; [lia|]. eexists. split; [reflexivity|]. rewrite range_cons by lia. rewrite range_nil. reflexivity. }
  destruct (parseAttributes (S (length s1)) [] false s1) as [[[h b] s2]| | |]; cbn [bind] in *;
    [|split; [intros _; apply ONE|split; [intros NS; contradiction|reflexivity]]|destruct SAFE as [[r SAFE]|SAFE]; discriminate..].
  destruct (parseTag s2) as [[[[ty n] attr] s3]| | |]; cbn [bind] in *;
    [|split; [intros _; apply ONE|split; [intros NS; contradiction|reflexivity]]|destruct SAFE as [[r SAFE]|SAFE]; discriminate..].
  destruct ty.
  - pose proof (obj_node_spec (S (length s3)) (next + 1) n [] [] s3) as A.
    destruct (obj_node (S (length s3)) (next + 1) n [] [] s3) as [[[r n1] c] ch]. destruct A as (L & P & E). cbn [map] in E. cbn [idsl map concat app] in P.
    assert (PR : forall a, next < n1 /\ exists root, Some (ONode next n a c ch) = Some root /\ Permutation (ids root) (range next n1)).
    { intros a. split; [lia|]. eexists. split; [reflexivity|]. cbn [ids]. rewrite range_cons by lia. constructor. exact P. }
    destruct (parseNode (S (length s3)) n [] [] s3) as [[[c2 ch2] s4]| | |]; cbn [bind] in *.
    + destruct E as (-> & -> & <-). split; [intros _; apply PR|]. split; [intros NS; contradiction|]. split; reflexivity.
    + subst r. split; [intros _; apply PR|]. split; [intros NS; contradiction|]. reflexivity.
    + destruct SAFE as [[q SAFE]|SAFE]; discriminate.
    + destruct SAFE as [[q SAFE]|SAFE]; discriminate.
  - split; [intros _; apply ONE|]. split; [intros NS; contradiction|reflexivity].
  - split; [intros _; apply ONE|]. split; [intros NS; contradiction|]. split; reflexivity.
Qed.
(** parse succeeds exactly on documents and then get() is the document's tree, whatever was parsed before;
    a text that does not start with <?xml throws and leaves the object as it was *)
Theorem C108_parse : forall torn next o s r next' o', obj_parse torn next o s = (r, next', o') ->
  (forall root, (exists h rest d, s = d ++ rest /\ document h root d) <-> r = Ok tt /\ get o' = Ok root) /\
  (r = Ok tt \/ r = Exn) /\ (~ starts s -> r = Exn /\ o' = o).
Proof.
  intros torn next o s r next' o' E. pose proof (parse_spec torn next o s) as P. rewrite E in P. destruct P as (_ & NS & P). split; [|split].
  - intros root. split.
    + intros (h & rest & d & D). assert (PE : parse s = Ok (h, root, rest)) by (apply C46_parse; exists d; exact D). rewrite PE in P. exact P.
    + intros [-> G]. destruct (parse s) as [[[h root'] rest]| | |] eqn:PE; [|discriminate|contradiction..].
      destruct P as [_ G']. rewrite G in G'. injection G' as <-. apply C46_parse in PE. destruct PE as (d & D). exists h, rest, d. exact D.
  - destruct (parse s) as [[[h root'] rest]| | |]; [left; apply P|right; exact P|contradiction..].
  - intros N. destruct (NS N) as (? & _ & ?). split; assumption.
Qed.
Lemma session_app torn a b : forall next o, session torn next o (a ++ b) = let (n, o') := session torn next o a in session torn n o' b.
Proof. induction a as [|s a IH]; intros next o; [reflexivity|]. cbn [app session]. destruct (obj_parse torn next o s) as [[r n] o']. apply IH. Qed.
Lemma session_idle torn a : forall next o, Forall (fun s => ~ starts s) a -> session torn next o a = (next, o).
Proof.
  induction a as [|s a IH]; intros next o F; [reflexivity|]. inversion F; subst. cbn [session]. pose proof (parse_spec torn next o s) as P.
  destruct (obj_parse torn next o s) as [[r n] o']. destruct P as (_ & NS & _). destruct (NS H1) as (_ & -> & ->). apply IH. assumption.
Qed.
Lemma session_grows torn a : forall next o, next <= fst (session torn next o a) /\ (Exists starts a -> next < fst (session torn next o a)).
Proof.
  induction a as [|s a IH]; intros next o; [split; [cbn; lia|intros H; inversion H]|]. cbn [session]. pose proof (parse_spec torn next o s) as P.
  destruct (obj_parse torn next o s) as [[r n] o']. destruct P as (ST & NS & _).
  assert (D : starts s \/ ~ starts s) by (rewrite starts_word; destruct (list_eq_dec Z.eq_dec (fst (getWord isName (skipSpace s))) (str "<?xml")); auto).
  destruct (IH n o') as [I1 I2]. destruct D as [D|D].
  - destruct (ST D) as [L _]. split; lia.
  - destruct (NS D) as (_ & -> & ->). split; [exact I1|]. intros H. inversion H; subst; [contradiction|]. apply I2. assumption.
Qed.
(** an object that parsed any texts: its destructor gives back, each once, the nodes made by the last parse that got past "<?xml";
    every node is given back exactly if that was the only one *)
Theorem C108_deleted : forall torn a s b, starts s -> Forall (fun t => ~ starts t) b ->
  let (made0, _) := session torn 0 obj_new a in
  let (made, o) := session torn 0 obj_new (a ++ [s] ++ b) in
  NoDup (obj_delete o) /\ (forall i, In i (obj_delete o) <-> made0 <= i < made) /\ made0 < made /\
  (made0 = 0 <-> Forall (fun t => ~ starts t) a).
Proof.
  intros torn a s b S F. rewrite session_app. destruct (session torn 0 obj_new a) as [made0 o0] eqn:EA.
  rewrite session_app. cbn [session]. pose proof (parse_spec torn made0 o0 s) as P. destruct (obj_parse torn made0 o0 s) as [[r n] o].
  rewrite session_idle by exact F. destruct P as (ST & _ & _). destruct (ST S) as (L & root & -> & P). cbn [obj_delete].
  assert (Q : Permutation (destroy root) (range made0 n)) by (rewrite destroy_ids; exact P).
  split; [eapply Permutation_NoDup; [symmetry; exact Q|apply range_nodup]|]. split; [|split; [exact L|]].
  - intros i. rewrite <- range_in. split; apply Permutation_in; [exact Q|symmetry; exact Q].
  - split.
    + intros E. apply Forall_Exists_neg. intros X. destruct (session_grows torn a 0 obj_new) as [_ G]. specialize (G X). rewrite EA in G. cbn [fst] in G. lia.
    + intros G. rewrite session_idle in EA by exact G. injection EA as <- _. reflexivity.
Qed.
(** nothing that starts with <?xml: no node is made and get() dereferences a null pointer *)
Theorem C108_never_parsed : forall torn a, Forall (fun t => ~ starts t) a -> session torn 0 obj_new a = (0, obj_new) /\ get obj_new = UB.
Proof. intros torn a F. split; [apply session_idle; exact F|reflexivity]. Qed.
(** ** Finding: MiniXml::parse (minixml.hpp:409) overwrites root_ without deleting it: a second parse leaks the whole first tree *)
Theorem C108_reparse_finding : forall torn s t, starts s -> starts t ->
  let (made, o) := session torn 0 obj_new [s; t] in exists i, 0 <= i < made /\ ~ In i (obj_delete o).
Proof.
  intros torn s t S T. pose proof (C108_deleted torn [s] t [] T ltac:(constructor)) as D. cbn [app] in D.
  pose proof (session_grows torn [s] 0 obj_new) as [_ G]. specialize (G ltac:(constructor; exact S)).
  destruct (session torn 0 obj_new [s]) as [made0 o0]. cbn [fst] in G. destruct (session torn 0 obj_new [s; t]) as [made o]. destruct D as (_ & I & L & _).
  exists 0. split; [lia|]. rewrite I. lia.
Qed.
(** ** Finding: the constructor MiniXml(begin, end) leaks the nodes made so far if the text starts with <?xml and is not a document:
    it throws, so the destructor does not run (minixml.hpp:419-423) *)
Theorem C108_constructor_finding : forall torn s, starts s -> parse s = Exn -> exists made, construct torn 0 s = (Exn, made) /\ 0 < made.
Proof.
  intros torn s S E. unfold construct. pose proof (parse_spec torn 0 None s) as P. destruct (obj_parse torn 0 None s) as [[r n] o].
  destruct P as (ST & _ & P). rewrite E in P. subst r. exists n. split; [reflexivity|]. apply ST. exact S.
Qed.
(** ** Finding: Node can be copied (Node n = xml.get();) and the copy deletes the same children: every node below the root is deleted twice *)
Theorem C108_copy_finding : forall root id c, In c (ochild root) ->
  In (oid c) (destroy (copy_node id root)) /\ In (oid c) (destroy root) /\ ~ NoDup (destroy (copy_node id root) ++ destroy root).
Proof.
  intros [i n m co ch] id c I. cbn [ochild] in I.
  assert (X : In (oid c) (concat (map destroy ch))).
  { apply in_concat. exists (destroy c). split; [apply in_map; exact I|]. destruct c. cbn [oid destroy]. apply in_or_app. right. left. reflexivity. }
  cbn [copy_node destroy]. assert (A : forall j, In (oid c) (concat (map destroy ch) ++ [j])) by (intros j; apply in_or_app; left; exact X).
  split; [apply A|]. split; [apply A|]. intros ND. apply in_split in X. destruct X as (u & v & EX). rewrite EX in ND.
  rewrite <- !app_assoc in ND. cbn [app] in ND. apply NoDup_remove_2 in ND. apply ND. rewrite !in_app_iff. right. right. right. rewrite in_app_iff. right. left. reflexivity.
Qed.
Definition no_torn : list Z -> list Z * attrs := fun _ => ([], []).
Example C108_ex : exists n o, obj_parse no_torn 0 obj_new (str "<?xml ?><a><b x='1' y='2' x='3' /><c>t</c></a>") = (Ok tt, n, o) /\ n = 3 /\ obj_delete o = [1; 2; 0] /\
  get o = Ok (Node (str "a") [] [] [Node (str "b") [(str "x", str "3"); (str "y", str "2")] [] []; Node (str "c") [] (str "t") []]).
Proof. eexists. eexists. split; [reflexivity|]. repeat split. Qed.
Example C108_ex_starts : starts (str "<?xml ?><a>") /\ ~ starts (str "<a>") /\ parse (str "<?xml ?><a>") = Exn.
Proof.
  split; [|split; [|reflexivity]].
  - apply starts_word. reflexivity.
  - intros H. apply starts_word in H. discriminate.
Qed.
Example C108_ex_attr : map_of [(str "x", str "1"); (str "x", str "3")] [(str "x", str "3")] /\ attr_get [(str "x", str "3")] (str "x") = Ok (str "3") /\ attr_get [(str "x", str "3")] (str "z") = Exn.
Proof.
  split; [|split; reflexivity]. exact (map_of_snoc [(str "x", str "1")] _ _ (str "3") (map_of_snoc [] [] (str "x") (str "1") map_of_nil)).
Qed.
Example C108_ex_torn : exists n o, obj_parse no_torn 5 obj_new (str "<?xml ?><a><b /><c><d />t") = (Exn, n, o) /\ n = 9 /\ obj_delete o = [6; 8; 7; 5].
Proof. eexists. eexists. split; [reflexivity|]. split; reflexivity. Qed.

Print Assumptions C108_attr.
Print Assumptions C108_attr_at.
Print Assumptions C108_parse.
Print Assumptions C108_deleted.
Print Assumptions C108_never_parsed.
Print Assumptions C108_reparse_finding.
Print Assumptions C108_constructor_finding.
Print Assumptions C108_copy_finding.
