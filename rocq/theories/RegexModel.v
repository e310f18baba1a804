(** Model of include/cybozu/regex.hpp: the ctype and regex_traits specializations for cybozu::Char (int) of the Windows branch,
    and the overloads of regex_search, regex_match, regex_replace and the constructors of regex over an arbitrary engine.  A pair of
    pointers or iterators is the list between them; a pointer result is the number of elements passed.  char is signed. *)
Require Import Verif.Common Verif.Utf8Model Verif.StringModel.
Import ListNotations.
Local Open Scope Z_scope.

Definition u32 (x : Z) : Z := x mod 2 ^ 32.
(** conversion of an int to char and to unsigned char *)
Definition to_char (c : Z) : Z := let b := c mod 256 in if b <? 128 then b else b - 256.
Definition to_uchar (c : Z) : Z := c mod 256.

(** regex.hpp:53-57 in; c is an unsigned int, min and max are chars *)
Definition in_ (c min max : Z) : bool := u32 (c - u32 min) <=? u32 (max - min).

(** regex.hpp:70-87 maskTbl *)
Definition maskTbl : list Z :=
  [32; 32; 32; 32; 32; 32; 32; 32; 32; 40; 40; 40; 40; 40; 32; 32;
   32; 32; 32; 32; 32; 32; 32; 32; 32; 32; 32; 32; 32; 32; 32; 32;
   72; 16; 16; 16; 16; 16; 16; 16; 16; 16; 16; 16; 16; 16; 16; 16;
   132; 132; 132; 132; 132; 132; 132; 132; 132; 132; 16; 16; 16; 16; 16; 16;
   16; 129; 129; 129; 129; 129; 129; 1; 1; 1; 1; 1; 1; 1; 1; 1;
   1; 1; 1; 1; 1; 1; 1; 1; 1; 1; 1; 16; 16; 16; 16; 16;
   16; 130; 130; 130; 130; 130; 130; 2; 2; 2; 2; 2; 2; 2; 2; 2;
   2; 2; 2; 2; 2; 2; 2; 2; 2; 2; 2; 16; 16; 16; 16; 32;
   0; 0; 0; 0; 0; 0; 0; 0; 0; 0; 0; 0; 0; 0; 0; 0;
   0; 0; 0; 0; 0; 0; 0; 0; 0; 0; 0; 0; 0; 0; 0; 0;
   0; 0; 0; 0; 0; 0; 0; 0; 0; 0; 0; 0; 0; 0; 0; 0;
   0; 0; 0; 0; 0; 0; 0; 0; 0; 0; 0; 0; 0; 0; 0; 0;
   0; 0; 0; 0; 0; 0; 0; 0; 0; 0; 0; 0; 0; 0; 0; 0;
   0; 0; 0; 0; 0; 0; 0; 0; 0; 0; 0; 0; 0; 0; 0; 0;
   0; 0; 0; 0; 0; 0; 0; 0; 0; 0; 0; 0; 0; 0; 0; 0;
   0; 0; 0; 0; 0; 0; 0; 0; 0; 0; 0; 0; 0; 0; 0; 0].
(** regex.hpp:105-126 is(m, c) *)
Definition is (m c : Z) : res bool :=
  if negb (Z.land (u32 c) (u32 (Z.lnot 255)) =? 0) then Ok false else
  let! t := rd maskTbl (to_uchar c) in Ok (negb (Z.land t m =? 0)).
(** regex.hpp:183-187 narrow(c, dflt) *)
Definition narrow (c dflt : Z) : Z := if ((0 <=? c) && (c <? 256)) || (c =? -1) then to_char c else dflt.
(** regex.hpp:127-135 is(begin, end, dest) *)
Fixpoint is_range (l : list Z) : res (list Z) :=
  match l with
  | [] => Ok []
  | c :: r => let! t := rd maskTbl (to_uchar (narrow c 0)) in let! d := is_range r in Ok (t :: d)
  end.
(** regex.hpp:136-140 scan_is: how many elements are passed *)
Fixpoint scan_is (m : Z) (l : list Z) : res Z :=
  match l with
  | [] => Ok 0
  | c :: r => let! b := is m c in if negb b then let! n := scan_is m r in Ok (1 + n) else Ok 0
  end.
(** regex.hpp:141-145 scan_not *)
Fixpoint scan_not (m : Z) (l : list Z) : res Z :=
  match l with
  | [] => Ok 0
  | c :: r => let! b := is m c in if (b : bool) then let! n := scan_not m r in Ok (1 + n) else Ok 0
  end.
(** regex.hpp:146-150, 159-163 *)
Definition tolower (c : Z) : Z := if (65 <=? c) && (c <=? 90) then c - 65 + 97 else c.
Definition toupper (c : Z) : Z := if (97 <=? c) && (c <=? 122) then c - 97 + 65 else c.
(** regex.hpp:151-158, 164-171: the range afterwards and the returned end *)
Fixpoint tolower_range (l : list Z) : list Z := match l with [] => [] | c :: r => tolower c :: tolower_range r end.
Fixpoint toupper_range (l : list Z) : list Z := match l with [] => [] | c :: r => toupper c :: toupper_range r end.
(** regex.hpp:172-175, 176-182 widen *)
Definition widen (c : Z) : Z := c.
Fixpoint widen_range (l : list Z) : list Z := match l with [] => [] | c :: r => widen c :: widen_range r end.
(** regex.hpp:188-194 narrow(begin, end, dflt, to) *)
Fixpoint narrow_range (l : list Z) (dflt : Z) : list Z := match l with [] => [] | c :: r => narrow c dflt :: narrow_range r dflt end.

(** regex.hpp:256-263 regex_traits<Char>::value *)
Definition value (ch base : Z) : Z :=
  if (negb (base =? 8) && (48 <=? ch) && (ch <=? 57)) || ((base =? 8) && (48 <=? ch) && (ch <=? 55)) then ch - 48 else
  if negb (base =? 16) then -1 else
  if (97 <=? ch) && (ch <=? 102) then ch - 97 + 10 else
  if (65 <=? ch) && (ch <=? 70) then ch - 65 + 10 else -1.

(** regex.hpp:270-304 _Names: the class constant _Ch_... that a name stands for; w: the mask -1, which the library takes as
    alphanumeric or underscore *)
Inductive cls := Alnum | Alpha | Blank | Cntrl | Digit | Graph | Lower | Print | Punct | Space | Upper | Xdigit | Word.
Definition Names : list (list Z * cls) :=
  [([97; 108; 112; 104; 97], Alnum); ([98; 108; 97; 110; 107], Blank); ([99; 110; 116; 114; 108], Cntrl); ([100], Digit);
   ([100; 105; 103; 105; 116], Digit); ([103; 114; 97; 112; 104], Graph); ([108; 111; 119; 101; 114], Lower);
   ([112; 114; 105; 110; 116], Print); ([112; 117; 110; 99; 116], Punct); ([115; 112; 97; 99; 101], Space); ([115], Space);
   ([117; 112; 112; 101; 114], Upper); ([119], Word); ([120; 100; 105; 103; 105; 116], Xdigit)].
Fixpoint lookup (t : list (list Z * cls)) (n : list Z) : option cls :=
  match t with
  | [] => None
  | (k, c) :: t => if list_eq_dec Z.eq_dec k n then Some c else lookup t n
  end.

(** the engine: what basic_regex makes of a pattern, and its search, match and replace over a range *)
Section Engine.
Variables (re match_ flags : Type).
Variables (compile : list Z -> flags -> res re).
Variables (search fullmatch : list Z -> re -> flags -> bool * match_) (replace : list Z -> re -> list Z -> flags -> list Z).
(** the chars of a C string of Char, given what can be read *)
Fixpoint zstr (p : list Z) : res (list Z) :=
  match p with [] => UB | c :: r => if c =? 0 then Ok [] else let! s := zstr r in Ok (c :: s) end.
(** regex.hpp:319-320 regex(p), p a pointer to Char *)
Definition regex_ptr (p : list Z) (f : flags) : res re := let! s := zstr p in compile s f.
(** regex.hpp:323-324 regex(const String&): p.c_str() is followed by 0 *)
Definition regex_str (p : list Z) (f : flags) : res re := regex_ptr (p ++ [0]) f.
(** regex.hpp:325-326 regex(p1, p2) *)
Definition regex_range (p : list Z) (f : flags) : res re := compile p f.
(** regex.hpp:327-328 regex(p, len) *)
Definition regex_len (p : list Z) (len : Z) (f : flags) : res re := if len <=? zlen p then compile (firstn (Z.to_nat len) p) f else UB.
(** regex.hpp:321-322 regex(p), p a pointer to Char16: String(p) decodes up to the NUL and may throw *)
Definition regex_16 (p : list Z) (f : flags) : res re :=
  let! s := zstr p in let! (t, ok) := push16 (S (length s)) [] s in if (ok : bool) then regex_str t f else Exn.
(** a String and a range of its iterators: [first, last) of the text *)
Definition sub (s : list Z) (first last : nat) : list Z := firstn (last - first) (skipn first s).
(** regex.hpp:388-391, 404-408 over iterators *)
Definition regex_search_range (s : list Z) (first last : nat) (e : re) (f : flags) : bool * match_ := search (sub s first last) e f.
Definition regex_search_range0 (s : list Z) (first last : nat) (e : re) (f : flags) : bool := fst (regex_search_range s first last e f).
(** regex.hpp:393-396, 398-402 over a String *)
Definition regex_search (s : list Z) (e : re) (f : flags) : bool * match_ := regex_search_range s 0 (length s) e f.
Definition regex_search0 (s : list Z) (e : re) (f : flags) : bool := fst (regex_search s e f).
(** regex.hpp:422-425, 432-436 *)
Definition regex_match_range (s : list Z) (first last : nat) (e : re) (f : flags) : bool * match_ := fullmatch (sub s first last) e f.
Definition regex_match_range0 (s : list Z) (first last : nat) (e : re) (f : flags) : bool := fst (regex_match_range s first last e f).
(** regex.hpp:427-430, 438-442 *)
Definition regex_match (s : list Z) (e : re) (f : flags) : bool * match_ := regex_match_range s 0 (length s) e f.
Definition regex_match0 (s : list Z) (e : re) (f : flags) : bool := fst (regex_match s e f).
(** regex.hpp:410-415, 417-420: the output is appended to an empty String *)
Definition regex_replace_range (s : list Z) (first last : nat) (e : re) (fmt : list Z) (f : flags) : list Z := [] ++ replace (sub s first last) e fmt f.
Definition regex_replace (s : list Z) (e : re) (fmt : list Z) (f : flags) : list Z := regex_replace_range s 0 (length s) e fmt f.
End Engine.
