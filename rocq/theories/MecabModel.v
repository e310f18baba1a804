(** Model of include/cybozu/nlp/mecab.hpp.  The analyser is a parameter: [wakati] gives the output text of Tagger::parse and [nodes]
    the list that Tagger::parseToNode returns (None: null pointer), for the bytes they are given.  As MeCab documents, what a
    tagger returned is overwritten by its next parse or parseToNode: using a node after that is UB.  A pointer argument is the
    bytes that can be read from it.  Deleting is counted. *)
Require Import Verif.Common.
Import ListNotations.
Local Open Scope Z_scope.

(** MeCab::Node: stat, where its surface starts in the text, its length, its feature (the bytes readable at that pointer) *)
Record node := mk_node { stat : Z; surface : Z; len : Z; feature : list Z }.
Definition EOS : Z := 3.   (* MECAB_EOS_NODE *)

(** strlen: None when no NUL can be reached *)
Fixpoint strlen (s : list Z) : option Z :=
  match s with
  | [] => None
  | c :: r => if c =? 0 then Some 0 else option_map (Z.add 1) (strlen r)
  end.
(** the bytes the analyser reads, given str and strLen: mecab.hpp:36-38, 58-60 *)
Definition input (str : list Z) (strLen : Z) : res (list Z) :=
  let! n := if strLen =? 0 then match strlen str with Some n => Ok n | None => UB end else Ok strLen in
  if n <=? zlen str then Ok (firstn (Z.to_nat n) str) else UB.

(** strchr(p, ' ') in a C string: what is before and after *)
Fixpoint strchr_sp (p : list Z) : option (list Z * list Z) :=
  match p with
  | [] => None
  | c :: r => if c =? 32 then Some ([], r) else option_map (fun '(a, b) => (c :: a, b)) (strchr_sp r)
  end.
(** mecab.hpp:41-53 the loop over the output, a text without NUL *)
Fixpoint split_loop (fuel : nat) (p : list Z) (out : list (list Z)) : res (list (list Z)) :=
  match fuel with
  | O => Fuel
  | S fuel =>
      match p with
      | [] => Ok out
      | c :: r =>
          if (c =? 32) || (c =? 10) || (c =? 13) || (c =? 9) then split_loop fuel r out
          else match strchr_sp p with
               | None => Ok (out ++ [p])
               | Some (w, q) => split_loop fuel q (out ++ [w])
               end
      end
  end.

(** the object: tagger_ (how often it was deleted), how many analyses were made, node_: null, or the nodes from it on with the
    number of the analysis that made them *)
Record mecab := mk_mecab { deleted : Z; analyses : Z; node_ : option (Z * list node) }.

Section Mecab.
Variables (wakati : list Z -> option (list Z)) (nodes : list Z -> option (list node)).
(** mecab.hpp:22-29 the constructor, given whether createTagger returned an object *)
Definition Mecab (created : bool) : res mecab := if created then Ok (mk_mecab 0 0 None) else Exn.
(** mecab.hpp:87-90; a copied object has the same tagger *)
Definition dtor (m : mecab) : res mecab := if deleted m =? 0 then Ok (mk_mecab 1 (analyses m) (node_ m)) else UB.
(** mecab.hpp:33-55 parse: the appended words, or None for false *)
Definition parse (m : mecab) (str : list Z) (strLen : Z) : res (option (list (list Z)) * mecab) :=
  let! t := input str strLen in
  let m := mk_mecab (deleted m) (analyses m + 1) (node_ m) in
  match wakati t with
  | None => Ok (None, m)
  | Some p => let! out := split_loop (S (length p)) p [] in Ok (Some out, m)
  end.
(** mecab.hpp:56-62 set *)
Definition set (m : mecab) (str : list Z) (strLen : Z) : res mecab :=
  let! t := input str strLen in
  Ok (mk_mecab (deleted m) (analyses m + 1) (option_map (fun l => (analyses m + 1, l)) (nodes t))).
(** mecab.hpp:63-66 set(std::string): &str[0] is followed by a NUL *)
Definition set_string (m : mecab) (s : list Z) : res mecab := set m (s ++ [0]) (zlen s).
(** *node_ *)
Definition current (m : mecab) : res node :=
  match node_ m with
  | Some (g, n :: _) => if g =? analyses m then Ok n else UB
  | _ => UB
  end.
(** node_ == 0: after the last node next is null *)
Definition is_null (m : mecab) : bool := match node_ m with None => true | Some (_, []) => true | _ => false end.
(** mecab.hpp:67-71 *)
Definition isEnd (m : mecab) : res bool := if is_null m then Ok true else let! n := current m in Ok (stat n =? EOS).
(** mecab.hpp:72-73 *)
Definition getPos (m : mecab) : res Z := let! n := current m in Ok (surface n).
Definition getSize (m : mecab) : res Z := let! n := current m in Ok (len n).
(** mecab.hpp:75-81; && reads the next byte only if the one before was right *)
Definition isNoun (m : mecab) : res bool :=
  let! n := current m in
  if len n <? 2 then Ok false else
  let! a := rd (feature n) 0 in if negb (a =? 229) then Ok false else
  let! b := rd (feature n) 1 in if negb (b =? 144) then Ok false else
  let! c := rd (feature n) 2 in Ok (c =? 141).
(** mecab.hpp:82-86 *)
Definition next (m : mecab) : res mecab :=
  let! _ := current m in Ok (mk_mecab (deleted m) (analyses m) (option_map (fun '(g, l) => (g, tl l)) (node_ m))).
End Mecab.
