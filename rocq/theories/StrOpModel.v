(** Model of include/cybozu/string_operation.hpp.  Characters are Z values (char: signed or unsigned
    value as the platform has it; cybozu::Char: 32-bit). *)
Require Import Verif.Common.

(** string.hpp:56-66 tolower, toupper *)
Definition tolower (c : Z) : Z := if (65 <=? c) && (c <=? 90) then c - 65 + 97 else c.
Definition toupper (c : Z) : Z := if (97 <=? c) && (c <=? 122) then c - 97 + 65 else c.

(** unsigned(c - k) for a 32-bit signed c: the subtraction must not overflow *)
Definition usub (c k : Z) : res Z := if c - k <? - 2 ^ 31 then UB else Ok ((c - k) mod 2 ^ 32).
(** string_operation.hpp:67-79 IsSpace(cybozu::Char) *)
Definition IsSpaceW (c : Z) : res bool :=
  if (c =? 0x20) || (c =? 0x3000) then Ok true else
  let! u := usub c 0x09 in
  if u <=? 0x0d - 0x09 then Ok true else
  if (c =? 0x85) || (c =? 0xa0) then Ok true else
  if c <? 0x1680 then Ok false else
  if (c =? 0x1680) || (c =? 0x180e) then Ok true else
  let! u := usub c 0x2000 in
  if u <=? 0x200a - 0x2000 then Ok true else
  let! u := usub c 0x2028 in
  if u <=? 0x2029 - 0x2028 then Ok true else
  if (c =? 0x202f) || (c =? 0x205f) || (c =? 0xfeff) then Ok true else Ok false.
(** string_operation.hpp:84-89 IsSpace(char) *)
Definition IsSpaceC (c : Z) : bool := (c =? 32) || (c =? 9).

Section Pred.
Variable isSpace : Z -> bool.

(** string_operation.hpp:97-105 SkipSpace on the range [b, e) of array s *)
Fixpoint SkipSpace (fuel : nat) (s : list Z) (b e : Z) : res Z :=
  if b <? e then
    match fuel with
    | O => Fuel
    | S f => let! c := rd s b in if negb (isSpace c) then Ok b else SkipSpace f s (b + 1) e
    end
  else Ok b.
(** string_operation.hpp:119-123 the backward loop of GetTrimPosition *)
Fixpoint TrimBack (fuel : nat) (s : list Z) (b e : Z) : res Z :=
  if b <? e then
    match fuel with
    | O => Fuel
    | S f => let! c := rd s (e - 1) in if negb (isSpace c) then Ok e else TrimBack f s b (e - 1)
    end
  else Ok e.
(** string_operation.hpp:116-125 GetTrimPosition: (new begin, new end) *)
Definition GetTrimPosition (s : list Z) (b e : Z) : res (Z * Z) :=
  let! b := SkipSpace (length s) s b e in
  let! e := TrimBack (length s) s b e in
  Ok (b, e).

(** string_operation.hpp:153-157 copy loop *)
Fixpoint copy_down (n : nat) (s : list Z) (dst src : Z) : res (list Z) :=
  match n with
  | O => Ok s
  | S n' => let! c := rd s src in let! s := wr s dst c in copy_down n' s (dst + 1) (src + 1)
  end.
(** string_operation.hpp:143-158 Trim *)
Definition Trim (s : list Z) : res (list Z) :=
  if zlen s =? 0 then Ok s else
  let! (b, e) := GetTrimPosition s 0 (zlen s) in
  let size := (e - b) mod 2 ^ 64 in
  let! s := (if negb (b =? 0) then copy_down (Z.to_nat size) s 0 b else Ok s) in
  (* resize to a smaller size *)
  Ok (firstn (Z.to_nat size) s).
(** string_operation.hpp:160-169 TrimCopy *)
Definition TrimCopy (s : list Z) : res (list Z) :=
  if zlen s =? 0 then Ok [] else
  let! (b, e) := GetTrimPosition s 0 (zlen s) in
  Ok (firstn (Z.to_nat (e - b)) (skipn (Z.to_nat b) s)).
End Pred.

(** string_operation.hpp:127-133 ChangeCase: resize, then std::transform; when [in] is [out] itself
    (ToLower(str)), the transform is in place *)
Definition ChangeCase (f : Z -> Z) (out inp : list Z) (doAppend : bool) : list Z :=
  (if doAppend then out else []) ++ map f inp.
(** string_operation.hpp:171-193 *)
Definition ToLower2 := ChangeCase tolower.
Definition ToUpper2 := ChangeCase toupper.
Definition ToLower (s : list Z) : list Z := ToLower2 s s false.
Definition ToUpper (s : list Z) : list Z := ToUpper2 s s false.

(** string_operation.hpp:195-208 Strip *)
Fixpoint strip_size (n : nat) (s : list Z) : res nat :=
  match n with
  | O => Ok O
  | S n' => let! c := rd s (Z.of_nat n') in if (c =? 10) || (c =? 13) then strip_size n' s else Ok n
  end.
Definition Strip (s : list Z) : res (list Z) := let! n := strip_size (length s) s in Ok (firstn n s).

(** string_operation.hpp:213-226 CaseCompare *)
Fixpoint case_cmp (i : Z) (n : nat) (a b : list Z) : res (option Z) :=
  match n with
  | O => Ok None
  | S n' =>
    let! x := rd a i in let! y := rd b i in
    if tolower x <? tolower y then Ok (Some (-1))
    else if tolower y <? tolower x then Ok (Some 1)
    else case_cmp (i + 1) n' a b
  end.
Definition CaseCompare (a b : list Z) : res Z :=
  let! r := case_cmp 0 (Nat.min (length a) (length b)) a b in
  match r with
  | Some v => Ok v
  | None => if zlen a <? zlen b then Ok (-1) else if zlen b <? zlen a then Ok 1 else Ok 0
  end.
(** string_operation.hpp:228-238 CaseEqual *)
Fixpoint case_eq (i : Z) (n : nat) (a b : list Z) : res bool :=
  match n with
  | O => Ok true
  | S n' =>
    let! x := rd a i in let! y := rd b i in
    if negb (tolower x =? tolower y) then Ok false else case_eq (i + 1) n' a b
  end.
Definition CaseEqual (a b : list Z) : res bool :=
  if negb (zlen a =? zlen b) then Ok false else case_eq 0 (length a) a b.
(** string_operation.hpp:318-323 CaseEqualStartWith *)
Definition CaseEqualStartWith (a b : list Z) : res bool :=
  if zlen a <? zlen b then Ok false else case_eq 0 (length b) a b.

(** string_operation.hpp:280-298 CaseFind on pointers: position of the match relative to begin.
    t is the target as CharT string (for cybozu::Char the constructor decodes it from UTF-8).
    The pointer comparison begin + n <= end is modelled on unbounded addresses. *)
Fixpoint match_at (i : Z) (n : nat) (s t : list Z) (p : Z) : res bool :=
  match n with
  | O => Ok true
  | S n' =>
    let! x := rd s (p + i) in let! y := rd t i in
    if negb (tolower x =? y) then Ok false else match_at (i + 1) n' s t p
  end.
Fixpoint find_from (fuel : nat) (s t : list Z) (p : Z) : res (option Z) :=
  if p + zlen t <=? zlen s then
    match fuel with
    | O => Fuel
    | S f => let! found := match_at 0 (length t) s t p in
             if found then Ok (Some p) else find_from f s t (p + 1)
    end
  else Ok None.
Definition CaseFindPtr (s target : list Z) : res (option Z) := find_from (S (length s)) s (ToLower target) 0.
(** string_operation.hpp:300-310 CaseFind on a string; None = npos *)
Definition CaseFindStr (s target : list Z) : res (option Z) :=
  if zlen s =? 0 then Ok None else CaseFindPtr s target.

(** std::string::find_first_of(c, cur): first position >= cur holding c; None = npos *)
Fixpoint find_first_of (s : list Z) (c : Z) (i : Z) (cur : Z) : option Z :=
  match s with
  | [] => None
  | x :: r => if (cur <=? i) && (x =? c) then Some i else find_first_of r c (i + 1) cur
  end.
(** StringT(&inStr[a], &inStr[b]) *)
Definition sub_str (s : list Z) (a b : Z) : res (list Z) :=
  if (a <? 0) || (zlen s <? a) || (b <? a) || (zlen s <? b) then UB
  else Ok (firstn (Z.to_nat (b - a)) (skipn (Z.to_nat a) s)).
(** string_operation.hpp:339-350 Split: (splitNum, out) *)
Fixpoint split_loop (fuel : nat) (s : list Z) (c : Z) (maxNum splitNum cur : Z) (out : list (list Z)) : res (Z * list (list Z)) :=
  match fuel with
  | O => Fuel
  | S f =>
    let pos := find_first_of s c 0 cur in
    match (if splitNum =? (maxNum - 1) mod 2 ^ 64 then None else pos) with
    | None => let! p := sub_str s cur (zlen s) in Ok (splitNum + 1, out ++ [p])
    | Some pos => let! p := sub_str s cur pos in split_loop f s c maxNum (splitNum + 1) (pos + 1) (out ++ [p])
    end
  end.
Definition Split (out : list (list Z)) (s : list Z) (c maxNum : Z) (doClear : bool) : res (Z * list (list Z)) :=
  split_loop (S (length s)) s c maxNum 0 0 (if doClear then [] else out).
