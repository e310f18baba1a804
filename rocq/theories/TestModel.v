(** Model of include/cybozu/test.hpp: the test runner and the check macros.
    The code under test is any function of the world W (its variables, files, output ...): it gives
    the new world, the results it passed to AutoRun::set in order, and a value or an exception.
    (AutoRun has no member that lets a test read the counters.) *)
Require Import Verif.Common.

(** an exception: an std::exception of some class with its what(), or anything else *)
Inductive thrown := Std (cls : nat) (what : list Z) | Oth (cls : nat).
Definition comp (W A : Type) := W -> W * list bool * (A + thrown).

(** sequencing of C++ statements: an exception skips the rest *)
Definition cret {W A} (a : A) : comp W A := fun w => (w, [], inl a).
Definition cbind {W A B} (c : comp W A) (f : A -> comp W B) : comp W B := fun w =>
  let '(w, ev, r) := c w in
  match r with
  | inr e => (w, ev, inr e)
  | inl a => let '(w', ev', r') := f a w in (w', ev ++ ev', r')
  end.
(** a call of AutoRun::set *)
Definition cset {W} (b : bool) : comp W unit := fun w => (w, [b], inl tt).
(** try { c } catch (...) { h } *)
Definition ctry {W A} (c : comp W A) (h : thrown -> comp W A) : comp W A := fun w =>
  let '(w, ev, r) := c w in
  match r with
  | inl a => (w, ev, inl a)
  | inr e => let '(w', ev', r') := h e w in (w', ev ++ ev', r')
  end.

(** test.hpp:23-34, 108-115: class AutoRun; counters of type int *)
Record autorun (W : Type) := { init_ : option (comp W unit); term_ : option (comp W unit);
  okCount : Z; ngCount : Z; exceptionCount : Z; list_ : list (list Z * comp W unit) }.
Arguments init_ {W}. Arguments term_ {W}. Arguments okCount {W}. Arguments ngCount {W}. Arguments exceptionCount {W}. Arguments list_ {W}.
Definition newAutoRun {W} : autorun W :=
  {| init_ := None; term_ := None; okCount := 0; ngCount := 0; exceptionCount := 0; list_ := [] |}.
(** test.hpp:35-39 setup *)
Definition setup {W} (i t : comp W unit) (r : autorun W) : autorun W :=
  {| init_ := Some i; term_ := Some t; okCount := okCount r; ngCount := ngCount r; exceptionCount := exceptionCount r; list_ := list_ r |}.
(** test.hpp:40-43 append *)
Definition append {W} (name : list Z) (f : comp W unit) (r : autorun W) : autorun W :=
  {| init_ := init_ r; term_ := term_ r; okCount := okCount r; ngCount := ngCount r; exceptionCount := exceptionCount r; list_ := list_ r ++ [(name, f)] |}.

(** ++ and + of int: overflow is undefined *)
Definition int_add (a b : Z) : res Z := if (a + b <? 2 ^ 31) && (- 2 ^ 31 <=? a + b) then Ok (a + b) else UB.
(** test.hpp:44-51 set; the counters as (ok, ng, exception) *)
Definition set (c : Z * Z * Z) (isOK : bool) : res (Z * Z * Z) :=
  let '(ok, ng, ex) := c in
  if isOK then let! ok := int_add ok 1 in Ok (ok, ng, ex)
  else let! ng := int_add ng 1 in Ok (ok, ng, ex).
Fixpoint sets (c : Z * Z * Z) (ev : list bool) : res (Z * Z * Z) :=
  match ev with [] => Ok c | b :: ev => let! c := set c b in sets c ev end.

(** std::string::find_last_of(char), find(char): position or none *)
Fixpoint find_ch (s : list Z) (c : Z) : option nat :=
  match s with [] => None | x :: s => if x =? c then Some O else option_map S (find_ch s c) end.
Fixpoint find_last (s : list Z) (c : Z) : option nat :=
  match s with
  | [] => None
  | x :: s => match find_last s c with Some k => Some (S k) | None => if x =? c then Some O else None end
  end.
(** test.hpp:52-63 getBaseName (sep = '/'); npos + 1 = 0, substr(0, npos) is the whole string *)
Definition getBaseName (name : list Z) : list Z :=
  let ret := match find_last name 47 with None => name | Some pos => skipn (S pos) name end in
  match find_ch ret 46 with None => ret | Some pos => firstn pos ret end.

(** what run prints itself *)
Inductive line :=
| LModule (name : list Z)
| LStopped (name : list Z) (what : option (list Z))
| LSummary (name : list Z) (module total ok ng exception : Z)
| LError (what : option (list Z)).
Definition what_of (e : thrown) : option (list Z) := match e with Std _ m => Some m | Oth _ => None end.

(** test.hpp:69-80 the loop over the tests of run *)
Fixpoint run_tests {W} (ts : list (list Z * comp W unit)) (w : W) (c : Z * Z * Z) (out : list line)
  : res (W * (Z * Z * Z) * list line) :=
  match ts with
  | [] => Ok (w, c, out)
  | (name, f) :: ts =>
    let out := out ++ [LModule name] in
    let '(w, ev, r) := f w in
    let! c := sets c ev in
    match r with
    | inl _ => run_tests ts w c out
    | inr e =>
      let '(ok, ng, ex) := c in
      let! ex := int_add ex 1 in
      run_tests ts w (ok, ng, ex) (out ++ [LStopped name (what_of e)])
    end
  end.
(** calling init_ or term_ unless it is null: 68, 81 *)
Definition call_opt {W} (f : option (comp W unit)) : comp W unit :=
  match f with None => cret tt | Some f => f end.

(** test.hpp:64-102 run; the result of main, the printed lines, the world.
    argv0 is argv[0] (given; argc = 0 is not modelled).  Both error messages of 83, 85 are non-empty. *)
Definition run {W} (r : autorun W) (argv0 : list Z) (w : W) : res (W * list line * Z) :=
  let c := (okCount r, ngCount r, exceptionCount r) in
  let '(w, ev, x) := call_opt (init_ r) w in
  let! c := sets c ev in
  match x with
  | inr e => Ok (w, [LError (what_of e)], 1)
  | inl _ =>
    let! (w, c, out) := run_tests (list_ r) w c [] in
    let '(w, ev, x) := call_opt (term_ r) w in
    let! c := sets c ev in
    match x with
    | inr e => Ok (w, out ++ [LError (what_of e)], 1)
    | inl _ =>
      let '(ok, ng, ex) := c in
      let! err := int_add ng ex in
      let! total := int_add ok err in
      Ok (w, out ++ [LSummary (getBaseName argv0) (zlen (list_ r)) total ok ng ex], if 0 <? err then 1 else 0)
    end
  end.

(** ** The comparisons: test.hpp:127-179 *)
(** isEqual(size_t, int), isEqual(int, size_t): 134-141 *)
Definition isEqual_size_int (lhs rhs : Z) : bool := lhs =? rhs mod 2 ^ 64.
Definition isEqual_int_size (lhs rhs : Z) : bool := lhs mod 2 ^ 64 =? rhs.
(** 142-157 isEqual of char pointers: strcmp of the memory from each pointer on *)
Fixpoint isEqual_str (a b : list Z) : res bool :=
  match a, b with
  | x :: a, y :: b => if x =? y then if x =? 0 then Ok true else isEqual_str a b else Ok false
  | _, _ => UB
  end.
(** 158-179 isEqual of float, of double: the bit patterns *)
Definition isEqual_bits (a b : Z) : bool := a =? b.

(** ** The macros.  The arguments of a function call are evaluated from left to right here (the
    language leaves the order open). *)
(** test.hpp:194, 119-125 CYBOZU_TEST_ASSERT *)
Definition TEST_ASSERT {W} (x : comp W bool) : comp W unit := cbind x (fun v => cset v).
(** test.hpp:253 CYBOZU_TEST_FAIL *)
Definition TEST_FAIL {W} : comp W unit := cset false.
(** test.hpp:201-208 CYBOZU_TEST_EQUAL; 237-247 uses it per element: the operands are evaluated
    again for the message if the check fails.  show prints a value. *)
Definition TEST_EQUAL {W A B} (eq : A -> B -> bool) (showA : A -> comp W unit) (showB : B -> comp W unit)
  (x : comp W A) (y : comp W B) : comp W unit :=
  cbind x (fun a => cbind y (fun b =>
  let e := eq a b in
  cbind (cset e) (fun _ =>
  if e then cret tt else
  cbind x (fun a => cbind (showA a) (fun _ => cbind y (fun b => showB b)))))).
(** test.hpp:237-247 CYBOZU_TEST_EQUAL_ARRAY: element i of x and y, i = 0 .. n-1 (k elements left) *)
Fixpoint TEST_EQUAL_ARRAY {W A B} (eq : A -> B -> bool) (showA : A -> comp W unit) (showB : B -> comp W unit)
  (x : Z -> comp W A) (y : Z -> comp W B) (i : Z) (k : nat) : comp W unit :=
  match k with
  | O => cret tt
  | S k => cbind (TEST_EQUAL eq showA showB (x i) (y i)) (fun _ => TEST_EQUAL_ARRAY eq showA showB x y (i + 1) k)
  end.

(** std::string::find(msg) != npos *)
Fixpoint is_prefix (m s : list Z) : bool :=
  match m, s with
  | [], _ => true
  | a :: m, b :: s => (a =? b) && is_prefix m s
  | _, _ => false
  end.
Fixpoint contains (m s : list Z) : bool :=
  is_prefix m s || match s with [] => false | _ :: s => contains m s end.
(** test.hpp:258-285 CYBOZU_TEST_EXCEPTION_MESSAGE; isE: would catch (const Exception&) catch it (the
    class has what()); _cybozu_ret is the value of the inner comp *)
Definition TEST_EXCEPTION_MESSAGE {W} (statement : comp W unit) (isE : thrown -> bool) (msg : list Z) : comp W unit :=
  cbind (ctry (cbind statement (fun _ => cret 1))
              (fun e => if isE e then cret (if contains msg (match what_of e with Some m => m | None => [] end) then 0 else 2) else cret 3))
  (fun ret => if negb (ret =? 0) then cset false else cset true).
(** test.hpp:287-307 CYBOZU_TEST_EXCEPTION *)
Definition TEST_EXCEPTION {W} (statement : comp W unit) (isE : thrown -> bool) : comp W unit :=
  cbind (ctry (cbind statement (fun _ => cret 1)) (fun e => if isE e then cret 0 else cret 2))
  (fun ret => if negb (ret =? 0) then cset false else cset true).
(** test.hpp:312-318 CYBOZU_TEST_NO_EXCEPTION *)
Definition TEST_NO_EXCEPTION {W} (statement : comp W unit) : comp W unit :=
  ctry (cbind statement (fun _ => cset true)) (fun _ => cset false).
(** test.hpp:338-351 CYBOZU_TEST_AUTO_WITH_FIXTURE: Fixture f; test();  the destructor runs on every
    exit from the body and throws nothing *)
Definition with_fixture {W} (ctor : comp W unit) (dtor : W -> W) (body : comp W unit) : comp W unit :=
  cbind ctor (fun _ w => let '(w, ev, r) := body w in (dtor w, ev, r)).
