(** Model of include/cybozu/minixml.hpp. An InputStream is the list of characters from begin_ to end_; taking *begin_ of an empty one
    (query() / inc() without a test) is UB. Node pointers are tree values; recursion depth (the C++ stack) and memory are not modelled. *)
Require Import Verif.Common Verif.AtoiModel Verif.ConfigModel Verif.Text.
From Coq Require String.

(** minixml.hpp:21-48 *)
Definition escape_char (c : Z) : list Z :=
  if c =? 38 then str "&amp;" else if c =? 60 then str "&lt;" else if c =? 62 then str "&gt;" else
  if c =? 39 then str "&apos;" else if c =? 34 then str "&quot;" else [c].
Definition escape (s : list Z) : list Z := fold_left (fun ret c => ret ++ escape_char c) s [].

(** minixml.hpp:53-77; [s] is the string from position i on, so n - i is its length *)
Fixpoint unescape_loop (fuel : nat) (s ret : list Z) : res (list Z) :=
  match fuel with
  | O => Fuel
  | S f =>
    match s with
    | [] => Ok ret
    | c :: r =>
      if c =? 38 then
        let! b := (if 5 <=? zlen s then memcmp_eq (str "amp;") r else Ok false) in
        if b then unescape_loop f (skipn 4 r) (ret ++ [38]) else
        let! b := (if 4 <=? zlen s then memcmp_eq (str "lt;") r else Ok false) in
        if b then unescape_loop f (skipn 3 r) (ret ++ [60]) else
        let! b := (if 4 <=? zlen s then memcmp_eq (str "gt;") r else Ok false) in
        if b then unescape_loop f (skipn 3 r) (ret ++ [62]) else
        let! b := (if 6 <=? zlen s then memcmp_eq (str "apos;") r else Ok false) in
        if b then unescape_loop f (skipn 5 r) (ret ++ [39]) else
        let! b := (if 6 <=? zlen s then memcmp_eq (str "quot;") r else Ok false) in
        if b then unescape_loop f (skipn 5 r) (ret ++ [34]) else Exn
      else unescape_loop f r (ret ++ [c])
    end
  end.
(** minixml.hpp:50-79 *)
Definition unescape (s : list Z) : res (list Z) := unescape_loop (S (length s)) s [].

(** minixml.hpp:81-83 a std::map *)
Definition attrs := list (list Z * list Z).
(** minixml.hpp:97-100 and the assignment to it *)
Definition attr_set (m : attrs) (k v : list Z) : attrs := mset k v (minsert k [] m).
(** minixml.hpp:125-134 *)
Inductive node := Node (name : list Z) (at_ : attrs) (content : list Z) (child : list node).

(** minixml.hpp:190-213 *)
Definition isSpace (c : Z) : bool := (c =? 32) || (c =? 9) || (c =? 13) || (c =? 10).
Definition isQuote (c : Z) : bool := (c =? 34) || (c =? 39).
Definition isEqual (c : Z) : bool := c =? 61.
Definition isName (c : Z) : bool := negb (isSpace c) && negb (isEqual c) && negb (isQuote c).
Definition isName2 (c : Z) : bool := negb (isSpace c) && negb (isEqual c) && negb (isQuote c) && negb (c =? 62).
(** minixml.hpp:215-223 *)
Definition isAttrValue (q c : Z) : bool := negb (c =? q).
Definition isContent (c : Z) : bool := negb (c =? 60).
(** minixml.hpp:225-229 *)
Inductive tagtype := BeginTag | EndTag | CompleteTag.
(** minixml.hpp:244-248 *)
Definition query (s : list Z) : res Z := match s with c :: _ => Ok c | [] => UB end.
(** minixml.hpp:249-253 *)
Definition inc (s : list Z) : res (list Z) := match s with _ :: r => Ok r | [] => UB end.
(** minixml.hpp:254-258 *)
Definition next (s : list Z) : res (Z * list Z) := match s with c :: r => Ok (c, r) | [] => Exn end.
(** minixml.hpp:259-265 *)
Fixpoint skipSpace (s : list Z) : list Z :=
  match s with c :: r => if isSpace c then skipSpace r else s | [] => [] end.
(** minixml.hpp:266-277 *)
Fixpoint getWord (f : Z -> bool) (s : list Z) : list Z * list Z :=
  match s with
  | c :: r => if f c then let (w, t) := getWord f r in (c :: w, t) else ([], s)
  | [] => ([], [])
  end.
(** minixml.hpp:281-297 *)
Definition parseAttribute (s : list Z) : res (list Z * list Z * list Z) :=
  let (key, s) := getWord isName s in
  if match key with [] => true | _ => false end then Exn else
  let s := skipSpace s in
  let! (c, s) := next s in
  if isEqual c then
    let s := skipSpace s in
    let! (q, s) := next s in
    if isQuote q then
      let (val, s) := getWord (isAttrValue q) s in
      let! (c, s) := next s in
      if c =? q then Ok (key, val, s) else Exn
    else Exn
  else Exn.
(** minixml.hpp:323-327: from the '/' or '?' on *)
Definition last_char (s : list Z) : res (list Z) :=
  let! s := inc s in
  let! (c, s) := next s in
  if negb (c =? 62) then Exn else Ok s.
(** minixml.hpp:304-328; result: (attributes, ends with "/>" or "?>", rest) *)
Fixpoint parseAttributes (fuel : nat) (attr : attrs) (normal : bool) (s : list Z) : res (attrs * bool * list Z) :=
  match fuel with
  | O => Fuel
  | S f =>
    let s := skipSpace s in
    if match s with [] => true | _ => false end then Exn else
    let! c := query s in
    if normal && (c =? 62) then let! s := inc s in Ok (attr, false, s) else
    if (normal && (c =? 47)) || (negb normal && (c =? 63)) then let! s := last_char s in Ok (attr, true, s) else
    let! (key, val, s) := parseAttribute s in
    parseAttributes f (attr_set attr key val) normal s
  end.
(** minixml.hpp:346-367; attr is empty at every call (:382 and a fresh root node :409); result: (type, name, attributes, rest).
    getTagName (:334-345) is never called. *)
Definition parseTag (s : list Z) : res (tagtype * list Z * attrs * list Z) :=
  let s := skipSpace s in
  let! (c, s) := next s in
  if negb (c =? 60) then Exn else
  if match s with [] => true | _ => false end then Exn else
  let! c := query s in
  let isend := c =? 47 in
  let! s := (if isend then inc s else Ok s) in
  let (name, s) := getWord isName2 s in
  if match name with [] => true | _ => false end then Exn else
  if isend then
    let! (c, s) := next s in
    if negb (c =? 62) then Exn else Ok (EndTag, name, [], s)
  else
    let! (attr, ret, s) := parseAttributes (S (length s)) [] true s in
    Ok (if ret then CompleteTag else BeginTag, name, attr, s).
(** minixml.hpp:368-371 *)
Definition parseContent (s : list Z) : list Z * list Z := getWord isContent s.
(** minixml.hpp:372-395. [content] and [child] (in order) are those of the node so far; result: (content, children, rest) *)
Fixpoint parseNode (fuel : nat) (name content : list Z) (child : list node) (s : list Z) : res (list Z * list node * list Z) :=
  match fuel with
  | O => Fuel
  | S f =>
    let s := skipSpace s in
    if match s with [] => true | _ => false end then Exn else
    let! c := query s in
    let (content, s) := if c =? 60 then (content, s) else parseContent s in
    if match s with [] => true | _ => false end then Exn else
    let! (type, n, attr, s) := parseTag s in
    match type with
    | EndTag => if str_eq name n then Ok (content, child, s) else Exn
    | CompleteTag => parseNode f name content (child ++ [Node n attr [] []]) s
    | BeginTag =>
      let! (c1, ch1, s) := parseNode f n [] [] s in
      parseNode f name content (child ++ [Node n attr c1 ch1]) s
    end
  end.
(** minixml.hpp:404-411 *)
Definition readHeader (s : list Z) : res (attrs * list Z) :=
  let s := skipSpace s in
  let (w, s) := getWord isName s in
  if negb (str_eq w (str "<?xml")) then Exn else
  let! (attr, _, s) := parseAttributes (S (length s)) [] false s in
  Ok (attr, s).
(** minixml.hpp:424-438: (header attributes, root, unread rest) *)
Definition parse (s : list Z) : res (attrs * node * list Z) :=
  let! (h, s) := readHeader s in
  let! (type, name, attr, s) := parseTag s in
  match type with
  | EndTag => Exn
  | CompleteTag => Ok (h, Node name attr [] [], s)
  | BeginTag => let! (c, ch, s) := parseNode (S (length s)) name [] [] s in Ok (h, Node name attr c ch, s)
  end.
(** minixml.hpp:113-119 *)
Definition put_attrs (a : attrs) : list Z := fold_left (fun os kv => os ++ [32] ++ fst kv ++ [61; 34] ++ snd kv ++ [34]) a [].
(** minixml.hpp:179-187 *)
Fixpoint put_node (n : node) : list Z :=
  match n with
  | Node name a _ ch => [60] ++ name ++ put_attrs a ++ [62] ++ concat (map put_node ch) ++ [60; 47] ++ name ++ [62]
  end.
(** minixml.hpp:444-449 *)
Definition put_xml (root : node) : list Z :=
  str "<?xml version=" ++ [34] ++ str "1.0" ++ [34] ++ str " encoding=" ++ [34] ++ str "UTF-8" ++ [34] ++ str " standalone=" ++ [34] ++ str "yes" ++ [34] ++ str "?>" ++ put_node root.
(** minixml.hpp:154-164 *)
Fixpoint getFirstTagByName (v : list Z) (n : node) : option node :=
  match n with
  | Node name _ _ ch =>
    if str_eq name v then Some n else
    (fix go (l : list node) := match l with [] => None | c :: r => match getFirstTagByName v c with Some p => Some p | None => go r end end) ch
  end.
