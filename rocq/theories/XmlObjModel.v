(** Model of the objects of include/cybozu/minixml.hpp: Attributes as a map, the Node objects on the heap (each has a number: its address)
    and who deletes them, MiniXml across several calls of parse.  What the characters mean is XmlModel.  new never fails. *)
Require Import Verif.Common Verif.ConfigModel Verif.Text Verif.XmlModel.
From Coq Require String.
Import ListNotations.
Local Open Scope Z_scope.

(** minixml.hpp:85-90 query *)
Definition attr_query (m : attrs) (k : list Z) : option (list Z) := mfind k m.
(** minixml.hpp:91-96 operator[] const *)
Definition attr_get (m : attrs) (k : list Z) : res (list Z) := match attr_query m k with Some v => Ok v | None => Exn end.
(** minixml.hpp:97-100 operator[]: the map afterwards and the value referred to *)
Definition attr_at (m : attrs) (k : list Z) : attrs * list Z :=
  let m := minsert k [] m in (m, match mfind k m with Some v => v | None => [] end).

(** minixml.hpp:125-134 a Node with its address *)
Inductive onode := ONode (id : Z) (name : list Z) (at_ : attrs) (content : list Z) (child : list onode).
Definition oid (n : onode) : Z := match n with ONode id _ _ _ _ => id end.
Definition ochild (n : onode) : list onode := match n with ONode _ _ _ _ ch => ch end.
Fixpoint erase (n : onode) : node := match n with ONode _ name a c ch => Node name a c (map erase ch) end.
(** minixml.hpp:135-140 delete: the children in order, then the node itself; the addresses given back *)
Fixpoint destroy (n : onode) : list Z := match n with ONode id _ _ _ ch => concat (map destroy ch) ++ [id] end.
(** minixml.hpp:144-153 appendChild at the address next *)
Definition appendChild (next : Z) (child : list onode) (name : list Z) (attr : attrs) : list onode := child ++ [ONode next name attr [] []].
(** the node appended last, as changed by parseNode(child) *)
Definition change_last (child : list onode) (content : list Z) (ch : list onode) : list onode :=
  match rev child with
  | ONode id n a _ _ :: r => rev r ++ [ONode id n a content ch]
  | [] => []
  end.
(** minixml.hpp:372-395 parseNode.  Result: how it ended (Ok: the unread rest), the next free address, content and children of the node *)
Fixpoint obj_node (fuel : nat) (next : Z) (name content : list Z) (child : list onode) (s : list Z) : res (list Z) * Z * list Z * list onode :=
  match fuel with
  | O => (Fuel, next, content, child)
  | S f =>
    let s := skipSpace s in
    match s with
    | [] => (Exn, next, content, child)
    | c :: _ =>
      let (content, s) := if c =? 60 then (content, s) else parseContent s in
      if match s with [] => true | _ => false end then (Exn, next, content, child) else
      match parseTag s with
      | Ok (EndTag, n, _, s) => (if str_eq name n then Ok s else Exn, next, content, child)
      | Ok (CompleteTag, n, attr, s) => obj_node f (next + 1) name content (appendChild next child n attr) s
      | Ok (BeginTag, n, attr, s) =>
          let child := appendChild next child n attr in
          let '(r, next, c1, ch1) := obj_node f (next + 1) n [] [] s in
          let child := change_last child c1 ch1 in
          match r with
          | Ok s => obj_node f next name content child s
          | Exn => (Exn, next, content, child)
          | UB => (UB, next, content, child)
          | Fuel => (Fuel, next, content, child)
          end
      | Exn => (Exn, next, content, child)
      | UB => (UB, next, content, child)
      | Fuel => (Fuel, next, content, child)
      end
    end
  end.

(** minixml.hpp:401-402, 415-418: root_; None: null.  xmlAttr_ cannot be read by a user and is left out *)
Definition obj := option onode.
Definition obj_new : obj := None.
(** minixml.hpp:404-411, 424-438 parse.  [torn]: name and attributes the root is left with when parseTag throws while it reads them
    (simplification: any).  Result: how it ended, the next free address, root_ *)
Definition obj_parse (torn : list Z -> list Z * attrs) (next : Z) (o : obj) (s : list Z) : res unit * Z * obj :=
  let (w, s1) := getWord isName (skipSpace s) in
  if negb (str_eq w (str "<?xml")) then (Exn, next, o) else
  match parseAttributes (S (length s1)) [] false s1 with
  | Ok (_, _, s2) =>
      match parseTag s2 with
      | Ok (EndTag, n, _, _) => (Exn, next + 1, Some (ONode next n [] [] []))
      | Ok (CompleteTag, n, attr, _) => (Ok tt, next + 1, Some (ONode next n attr [] []))
      | Ok (BeginTag, n, attr, s3) =>
          let '(r, next', c, ch) := obj_node (S (length s3)) (next + 1) n [] [] s3 in
          let root := Some (ONode next n attr c ch) in
          match r with Ok _ => (Ok tt, next', root) | Exn => (Exn, next', root) | UB => (UB, next', root) | Fuel => (Fuel, next', root) end
      | Exn => (Exn, next + 1, Some (ONode next (fst (torn s)) (snd (torn s)) [] []))
      | UB => (UB, next + 1, None)
      | Fuel => (Fuel, next + 1, None)
      end
  | Exn => (Exn, next + 1, Some (ONode next [] [] [] []))
  | UB => (UB, next + 1, None)
  | Fuel => (Fuel, next + 1, None)
  end.
(** minixml.hpp:439 get *)
Definition get (o : obj) : res node := match o with Some r => Ok (erase r) | None => UB end.
(** minixml.hpp:440-443 the destructor: the addresses given back *)
Definition obj_delete (o : obj) : list Z := match o with Some r => destroy r | None => [] end.
(** minixml.hpp:419-423 the constructor that parses: no object (and no destructor) if it throws *)
Definition construct (torn : list Z -> list Z * attrs) (next : Z) (s : list Z) : res obj * Z :=
  match obj_parse torn next None s with
  | (Ok _, n, o) => (Ok o, n)
  | (Exn, n, _) => (Exn, n)
  | (UB, n, _) => (UB, n)
  | (Fuel, n, _) => (Fuel, n)
  end.
(** one object, several calls of parse whose exceptions the caller catches *)
Fixpoint session (torn : list Z -> list Z * attrs) (next : Z) (o : obj) (texts : list (list Z)) : Z * obj :=
  match texts with
  | [] => (next, o)
  | s :: r => let '(_, next, o) := obj_parse torn next o s in session torn next o r
  end.
(** the implicit copy constructor of Node (minixml.hpp:125-134): the same child pointers in a node at another address *)
Definition copy_node (id : Z) (n : onode) : onode := match n with ONode _ name a c ch => ONode id name a c ch end.
