(** Model of include/cybozu/nlp/sparse.hpp: the two position tables, SparseVector, its iterator, Intersection, Union, InnerProduct.
    The template argument PosTbl is a constructor of [tbl].  A const SparseVector is not quite constant: taking begin() of
    a CompressedPositionTbl vector appends a mutable dummy byte, so begin() returns the new object too.
    size_t has 64 bits, unsigned int 32.  std::vector growth never fails. *)
Require Import Verif.Common Verif.StreamModel Verif.SerializerModel.

(** sparse.hpp:18-19 PositionTbl::v_; 74-77 CompressedPositionTbl::v_, lastPos_, addDummy_ *)
Inductive tbl : Type :=
| Plain (v : list Z)
| Packed (v : list Z) (lastPos : Z) (addDummy : bool).
(** sparse.hpp:21-31, 80-99 Curr; PositionTbl::Curr has only vecPos_ *)
Record curr := mk_curr { vecPos : Z; cval : Z; cpos : Z }.

(** sparse.hpp:159-176 CompressedPositionTbl::setup; pos_ and pos are unsigned int *)
Definition setup (v : list Z) (c : curr) : res curr :=
  let! d := rd v (cpos c) in
  let t := Z.shiftr d 6 in
  let pos := cpos c in
  let! diff :=
    (if 0 <? t then
       let d := Z.land d 63 in
       if t =? 1 then let! a := rd v ((pos + 1) mod 2 ^ 32) in Ok (Z.lor d (Z.shiftl a 6))
       else if t =? 2 then let! a := rd v ((pos + 1) mod 2 ^ 32) in let! b := rd v ((pos + 2) mod 2 ^ 32) in
         Ok (Z.lor d (Z.lor (Z.shiftl a 6) (Z.shiftl b 14)))
       else let! a := rd v ((pos + 1) mod 2 ^ 32) in let! b := rd v ((pos + 2) mod 2 ^ 32) in let! e := rd v ((pos + 3) mod 2 ^ 32) in
         Ok (Z.lor d (Z.lor (Z.lor (Z.shiftl a 6) (Z.shiftl b 14)) (Z.shiftl e 22)))
     else Ok d) in
  Ok (mk_curr (vecPos c) ((cval c + diff) mod 2 ^ 64) ((cpos c + (t + 1)) mod 2 ^ 32)).

(** sparse.hpp:23-26, 84-94: the cursor of begin() *)
Definition tbl_begin (t : tbl) : res (curr * tbl) :=
  match t with
  | Plain v => Ok (mk_curr 0 0 0, Plain v)
  | Packed v l dummy =>
      let v := if dummy then v else v ++ [0] in
      let! c := setup v (mk_curr 0 0 0) in
      Ok (c, Packed v l true)
  end.
(** sparse.hpp:50-53, 146-150 next *)
Definition tbl_next (t : tbl) (c : curr) : res curr :=
  match t with
  | Plain _ => Ok (mk_curr (vecPos c + 1) (cval c) (cpos c))
  | Packed v _ _ => let! c := setup v c in Ok (mk_curr (vecPos c + 1) (cval c) (cpos c))
  end.
(** sparse.hpp:54-57, 151 get *)
Definition tbl_get (t : tbl) (c : curr) : res Z :=
  match t with
  | Plain v => rd v (vecPos c)
  | Packed _ _ _ => Ok (cval c)
  end.
(** sparse.hpp:36-45, 115-145 set; the flag says that it threw, the table is the one left behind *)
Definition tbl_set (t : tbl) (pos : Z) : tbl * bool :=
  match t with
  | Plain v =>
      if negb (zlen v =? 0) && (pos <=? last v 0) then (t, true)
      else if 4294967295 <? pos then (t, true)
      else (Plain (v ++ [pos mod 2 ^ 32]), false)
  | Packed v lastPos dummy =>
      let v := if dummy then removelast v else v in
      if negb (zlen v =? 0) && (pos <=? lastPos) then (Packed v lastPos false, true)
      else if 2 ^ 30 <=? (pos - lastPos) mod 2 ^ 64 then (Packed v lastPos false, true)
      else
        let diff := ((pos - lastPos) mod 2 ^ 64) mod 2 ^ 32 in
        let byte x := x mod 256 in
        let low h := Z.lor (byte (Z.land diff 63)) (Z.shiftl h 6) in
        let v :=
          if diff <? 2 ^ 6 then v ++ [byte diff]
          else if diff <? 2 ^ 14 then v ++ [low 1; byte (Z.shiftr diff 6)]
          else if diff <? 2 ^ 22 then v ++ [low 2; byte (Z.shiftr diff 6); byte (Z.shiftr diff 14)]
          else v ++ [low 3; byte (Z.shiftr diff 6); byte (Z.shiftr diff 14); byte (Z.shiftr diff 22)] in
        (Packed v pos false, false)
  end.
(** sparse.hpp:46-49, 105-110 clear; 100-104 the constructor *)
Definition tbl_clear (t : tbl) : tbl := match t with Plain _ => Plain [] | Packed _ _ _ => Packed [] 0 false end.
Definition tbl_new (packed : bool) : tbl := if packed then Packed [] 0 false else Plain [].

(** sparse.hpp:181-184 SparseVector *)
Record sv (A : Type) := mk_sv { tab : tbl; vec : list A }.
Arguments mk_sv {A}. Arguments tab {A}. Arguments vec {A}.

Section Values.
Context {A : Type}.

Definition sv_new (packed : bool) : sv A := mk_sv (tbl_new packed) [].
(** sparse.hpp:233-237 push_back: true if it threw *)
Definition push_back (v : sv A) (pos : Z) (x : A) : sv A * bool :=
  let (t, thrown) := tbl_set (tab v) pos in
  if thrown then (mk_sv t (vec v), true) else (mk_sv t (vec v ++ [x]), false).
(** sparse.hpp:238-242 clear; 245 size *)
Definition sv_clear (v : sv A) : sv A := mk_sv (tbl_clear (tab v)) [].
Definition sv_size (v : sv A) : Z := zlen (vec v).
(** sparse.hpp:220-227 set(map): the pairs of a map in order; stops at the first exception *)
Fixpoint sv_set (v : sv A) (m : list (Z * A)) : sv A * bool :=
  match m with
  | [] => (v, false)
  | (p, x) :: m => let (v, thrown) := push_back v p x in if thrown then (v, true) else sv_set v m
  end.
(** sparse.hpp:187-213, 243-244 ConstIterator: begin, the end position, pos(), val(), operator++, operator!= *)
Definition it_begin (v : sv A) : res (curr * sv A) :=
  let! (c, t) := tbl_begin (tab v) in Ok (c, mk_sv t (vec v)).
Definition it_end (v : sv A) : Z := zlen (vec v).
Definition it_pos (v : sv A) (c : curr) : res Z := tbl_get (tab v) c.
Definition it_val (v : sv A) (c : curr) : res A := rd (vec v) (vecPos c).
Definition it_next (v : sv A) (c : curr) : res curr := tbl_next (tab v) c.

(** for (const_iterator i = begin(), ie = end(); i != ie; ++i) reading i->pos() and i->val() *)
Fixpoint iter_from (fuel : nat) (v : sv A) (ie : Z) (c : curr) : res (list (Z * A)) :=
  if vecPos c =? ie then Ok [] else
  match fuel with
  | O => Fuel
  | S n =>
      let! p := it_pos v c in let! x := it_val v c in
      let! c := it_next v c in
      let! r := iter_from n v ie c in Ok ((p, x) :: r)
  end.
Definition iterate (v : sv A) : res (list (Z * A) * sv A) :=
  let! (c, v) := it_begin v in
  let! l := iter_from (S (length (vec v))) v (it_end v) c in Ok (l, v).

(** sparse.hpp:247-255 operator==; [eqv] compares values (operator!= of T is its negation) *)
Fixpoint eq_from (fuel : nat) (eqv : A -> A -> bool) (v w : sv A) (ie : Z) (c d : curr) : res bool :=
  if vecPos c =? ie then Ok true else
  match fuel with
  | O => Fuel
  | S n =>
      let! p := it_pos v c in let! q := it_pos w d in
      if negb (p =? q) then Ok false else
      let! x := it_val v c in let! y := it_val w d in
      if negb (eqv x y) then Ok false else
      let! c := it_next v c in let! d := it_next w d in
      eq_from n eqv v w ie c d
  end.
Definition sv_eq (eqv : A -> A -> bool) (v w : sv A) : res bool :=
  if negb (sv_size v =? sv_size w) then Ok false else
  let! (c, v) := it_begin v in
  let! (d, w) := it_begin w in
  eq_from (S (length (vec v))) eqv v w (it_end v) c d.

(** sparse.hpp:288-296 save (cybozu::save of a size_t and of T) and 272-286 load *)
Section Stream.
Variables (little : bool) (ct : codec A).
Let size_t : cint := mk_cint 8 false.
Definition sv_save (v : sv A) : res (list Z * sv A) :=
  let! h := saveVariableInt little size_t (sv_size v) in
  let! (l, v) := iterate v in
  let! b := save_all (fun q => let! a := saveVariableInt little size_t (fst q) in let! b := c_save ct (snd q) in Ok (a ++ b)) l in
  Ok (h ++ b, v).
Fixpoint sv_load_loop (n : nat) (v : sv A) (is : istream) : res (sv A * istream) :=
  match n with
  | O => Ok (v, is)
  | S n =>
      let! (p, is) := loadVariableInt little size_t is in
      let! (x, is) := c_load ct (c_default ct) is in
      let (v, thrown) := push_back v p x in
      if thrown then Exn else sv_load_loop n v is
  end.
Definition sv_load (v : sv A) (is : istream) : res (sv A * istream) :=
  let! (n, is) := loadVariableInt little size_t is in
  sv_load_loop (Z.to_nat n) (sv_clear v) is.
End Stream.
End Values.

(** sparse.hpp:299-374 Intersection.  The two vectors are the objects after begin() has been taken of both; they may be one object.
    A state is begin1_, begin2_, isEnd_. *)
Section Two.
Context {A B : Type}.
Variables (v1 : sv A) (v2 : sv B).

(** sparse.hpp:343-349 while (begin1_->pos() < begin2_->pos()) *)
Fixpoint inter_w1 (fuel : nat) (c1 c2 : curr) : res (curr * bool) :=
  let! p1 := it_pos v1 c1 in let! p2 := it_pos v2 c2 in
  if p1 <? p2 then
    match fuel with
    | O => Fuel
    | S n => let! c1 := it_next v1 c1 in if vecPos c1 =? it_end v1 then Ok (c1, true) else inter_w1 n c1 c2
    end
  else Ok (c1, false).
(** sparse.hpp:352-358 while (begin1_->pos() > begin2_->pos()) *)
Fixpoint inter_w2 (fuel : nat) (c1 c2 : curr) : res (curr * bool) :=
  let! p1 := it_pos v1 c1 in let! p2 := it_pos v2 c2 in
  if p2 <? p1 then
    match fuel with
    | O => Fuel
    | S n => let! c2 := it_next v2 c2 in if vecPos c2 =? it_end v2 then Ok (c2, true) else inter_w2 n c1 c2
    end
  else Ok (c2, false).
(** sparse.hpp:342-360 for (;;) *)
Fixpoint inter_loop (fuel : nat) (c1 c2 : curr) : res (curr * curr * bool) :=
  match fuel with
  | O => Fuel
  | S n =>
      let! (c1, e) := inter_w1 (length (vec v1)) c1 c2 in
      if e then Ok (c1, c2, true) else
      let! p1 := it_pos v1 c1 in let! p2 := it_pos v2 c2 in
      if p1 =? p2 then Ok (c1, c2, false) else
      let! (c2, e) := inter_w2 (length (vec v2)) c1 c2 in
      if e then Ok (c1, c2, true) else
      let! p1 := it_pos v1 c1 in let! p2 := it_pos v2 c2 in
      if p1 =? p2 then Ok (c1, c2, false) else
      inter_loop n c1 c2
  end.
(** sparse.hpp:334-361 operator++ *)
Definition inter_next (s : curr * curr * bool) : res (curr * curr * bool) :=
  let '(c1, c2, e) := s in
  if e then Ok s else
  let! p1 := it_pos v1 c1 in let! p2 := it_pos v2 c2 in
  let! (c1, e) := (if p1 =? p2 then let! c1 := it_next v1 c1 in Ok (c1, vecPos c1 =? it_end v1) else Ok (c1, false)) in
  if e then Ok (c1, c2, true) else
  inter_loop (S (length (vec v1) + length (vec v2))) c1 c2.
(** sparse.hpp:314-327 the constructor with isEnd = false *)
Definition inter_init (c1 c2 : curr) : res (curr * curr * bool) :=
  if (vecPos c1 =? it_end v1) || (vecPos c2 =? it_end v2) then Ok (c1, c2, true) else
  let! p1 := it_pos v1 c1 in let! p2 := it_pos v2 c2 in
  if negb (p1 =? p2) then inter_next (c1, c2, false) else Ok (c1, c2, false).
(** for (i = begin(), ie = end(); i != ie; ++i): operator== is isEnd_ (362); pos(), val1(), val2() are 328-330 *)
Fixpoint inter_from (fuel : nat) (s : curr * curr * bool) : res (list (Z * A * B)) :=
  let '(c1, c2, e) := s in
  if e then Ok [] else
  match fuel with
  | O => Fuel
  | S n =>
      let! p := it_pos v1 c1 in let! x := it_val v1 c1 in let! y := it_val v2 c2 in
      let! s := inter_next s in
      let! r := inter_from n s in Ok ((p, x, y) :: r)
  end.

(** sparse.hpp:386-402 Mode *)
Inductive mode := MEnd | Only1 | Only2 | Small | Equal | Large.
(** sparse.hpp:411-439 detectMode; pos_ keeps its old value at the end *)
Definition detectMode (pos : Z) (c1 c2 : curr) : res (mode * Z) :=
  if negb (vecPos c1 =? it_end v1) then
    let! pos1 := it_pos v1 c1 in
    if negb (vecPos c2 =? it_end v2) then
      let! pos2 := it_pos v2 c2 in
      Ok (if pos1 <? pos2 then (Small, pos1) else if pos1 =? pos2 then (Equal, pos1) else (Large, pos2))
    else Ok (Only1, pos1)
  else if negb (vecPos c2 =? it_end v2) then
    let! pos2 := it_pos v2 c2 in Ok (Only2, pos2)
  else Ok (MEnd, pos).
(** sparse.hpp:454-455 *)
Definition hasVal1 (m : mode) : bool := match m with Only1 | Small | Equal => true | _ => false end.
Definition hasVal2 (m : mode) : bool := match m with Only2 | Equal | Large => true | _ => false end.
(** sparse.hpp:465-487 operator++ *)
Definition union_next (m : mode) (pos : Z) (c1 c2 : curr) : res (mode * Z * curr * curr) :=
  match m with
  | MEnd => Ok (m, pos, c1, c2)
  | _ =>
      let! c1 := (match m with Only1 | Small | Equal => it_next v1 c1 | _ => Ok c1 end) in
      let! c2 := (match m with Only2 | Equal | Large => it_next v2 c2 | _ => Ok c2 end) in
      let! (m, pos) := detectMode pos c1 c2 in Ok (m, pos, c1, c2)
  end.
(** the loop over a Union: an iterator is compared with end() by its mode (488); val1() and val2() are 460-461:
    the value if present, otherwise 0, here None *)
Fixpoint union_from (fuel : nat) (m : mode) (pos : Z) (c1 c2 : curr) : res (list (Z * option A * option B)) :=
  match m with
  | MEnd => Ok []
  | _ =>
      match fuel with
      | O => Fuel
      | S n =>
          let! x := (if hasVal1 m then let! x := it_val v1 c1 in Ok (Some x) else Ok None) in
          let! y := (if hasVal2 m then let! y := it_val v2 c2 in Ok (Some y) else Ok None) in
          let! (m', pos', c1, c2) := union_next m pos c1 c2 in
          let! r := union_from n m' pos' c1 c2 in Ok ((pos, x, y) :: r)
      end
  end.
End Two.

(** sparse.hpp:372-373, 441-451, 498-499: begin() of Intersection and Union take begin() of both vectors *)
Definition intersection {A B} (v1 : sv A) (v2 : sv B) : res (list (Z * A * B)) :=
  let! (c1, v1) := it_begin v1 in
  let! (c2, v2) := it_begin v2 in
  let! s := inter_init v1 v2 c1 c2 in
  inter_from v1 v2 (S (length (vec v1))) s.
Definition union {A B} (v1 : sv A) (v2 : sv B) : res (list (Z * option A * option B)) :=
  let! (c1, v1) := it_begin v1 in
  let! (c2, v2) := it_begin v2 in
  let! (m, pos) := detectMode v1 v2 0 c1 c2 in
  union_from v1 v2 (S (length (vec v1) + length (vec v2))) m pos c1 c2.

(** sparse.hpp:506-525 InnerProduct.  Ret arithmetic is given by [zero], [add], [mul] and the two casts; [same] says the
    two arguments are one object (512), which is only possible for equal types. *)
Definition InnerProduct {R A B} (zero : R) (add mul : R -> R -> R) (ra : A -> R) (rb : B -> R) (same : bool) (lhs : sv A) (rhs : sv B) : res R :=
  if same then
    let! (l, _) := iterate lhs in Ok (fold_left (fun r e => add r (mul (ra (snd e)) (ra (snd e)))) l zero)
  else
    let! l := intersection lhs rhs in
    Ok (fold_left (fun r e => let '(_, x, y) := e in add r (mul (ra x) (rb y))) l zero).
(** sparse.hpp:263-271 norm *)
Definition norm {R A} (zero : R) (add mul : R -> R -> R) (ra : A -> R) (v : sv A) : res R :=
  let! (l, _) := iterate v in Ok (fold_left (fun r e => add r (mul (ra (snd e)) (ra (snd e)))) l zero).
