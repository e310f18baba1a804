(** Model of the UTF-8/UTF-16 part of include/cybozu/string.hpp.
    Char is modelled by its value in Z (wchar_t, 32 bit, signed on x86-64 Linux: may be negative);
    char is modelled by its unsigned value. *)
Require Import Verif.Common.

(** string.hpp:71-75 in(c, min, max): unsigned comparison of differences *)
Definition in_rng (c min max : Z) : bool := (c - min) mod 2 ^ 32 <=? (max - min) mod 2 ^ 32.

(** string.hpp:114-122 *)
Definition GetCharSize (c : Z) : Z :=
  if c <=? 0x7f then 1
  else if c <=? 0x7ff then 2
  else if c <=? 0xd7ff then 3
  else if (c <=? 0xdfff) || (0x10ffff <? c) then 0
  else if c <=? 0xffff then 3
  else 4.
(** string.hpp:125-128 *)
Definition IsValidChar (c : Z) : bool := negb (GetCharSize c =? 0).

(** string.hpp:135-186 GetCharFromUtf8: the iterator range [begin, end) is the list; result: the
    character if the function returned true, and the remaining range.  Dereferencing end is UB. *)
Definition GetCharFromUtf8 (s : list Z) : res (option Z * list Z) :=
  match s with
  | [] => UB
  | c0 :: s =>
    if c0 <=? 0x7f then Ok (Some c0, s)
    else if in_rng c0 0xc2 0xdf then
      match s with
      | [] => Ok (None, s)
      | c1 :: s =>
        if in_rng c1 0x80 0xbf then Ok (Some (Z.lor (Z.shiftl c0 6) (Z.land c1 0x3f) - 0x3000), s)
        else Ok (None, s)
      end
    else if c0 <=? 0xef then
      match s with
      | [] => Ok (None, s)
      | c1 :: s =>
        match s with
        | [] => Ok (None, s)
        | c2 :: s =>
          if in_rng c2 0x80 0xbf then
            if ((c0 =? 0xe0) && in_rng c1 0xa0 0xbf)
              || (in_rng c0 0xe1 0xec && in_rng c1 0x80 0xbf)
              || ((c0 =? 0xed) && in_rng c1 0x80 0x9f)
              || (in_rng c0 0xee 0xef && in_rng c1 0x80 0xbf)
            then Ok (Some (Z.lor (Z.lor (Z.shiftl c0 12) (Z.shiftl (Z.land c1 0x3f) 6)) (Z.land c2 0x3f) - 0xe0000), s)
            else Ok (None, s)
          else Ok (None, s)
        end
      end
    else if in_rng c0 0xf0 0xf4 then
      match s with
      | [] => Ok (None, s)
      | c1 :: s =>
        match s with
        | [] => Ok (None, s)
        | c2 :: s =>
          match s with
          | [] => Ok (None, s)
          | c3 :: s =>
            if in_rng c2 0x80 0xbf && in_rng c3 0x80 0xbf then
              if ((c0 =? 0xf0) && in_rng c1 0x90 0xbf)
                || (in_rng c0 0xf1 0xf3 && in_rng c1 0x80 0xbf)
                || ((c0 =? 0xf4) && in_rng c1 0x80 0x8f)
              then Ok (Some (Z.lor (Z.lor (Z.lor (Z.shiftl c0 18) (Z.shiftl (Z.land c1 0x3f) 12))
                                    (Z.shiftl (Z.land c2 0x3f) 6)) (Z.land c3 0x3f) - 0x3c00000), s)
              else Ok (None, s)
            else Ok (None, s)
          end
        end
      end
    else Ok (None, s)
  end.

(** string.hpp:197-200 isLead, isTrail *)
Definition isLead (c : Z) : bool := Z.land c 0xfffffc00 =? 0xd800.
Definition isTrail (c : Z) : bool := Z.land c 0xfffffc00 =? 0xdc00.

(** string.hpp:194-215 GetCharFromUtf16 *)
Definition GetCharFromUtf16 (s : list Z) : res (option Z * list Z) :=
  match s with
  | [] => UB
  | c0 :: s =>
    if negb (isLead c0) then Ok (Some c0, s)
    else match s with
      | [] => Ok (None, s)
      | c1 :: s =>
        if isTrail c1 then
          let offset := Z.shiftl 0xd800 10 + 0xdc00 - 0x10000 in
          Ok (Some (Z.shiftl c0 10 + c1 - offset), s)
        else Ok (None, s)
      end
  end.

(** static_cast<char>, static_cast<Char16> *)
Definition to_c8 (x : Z) : Z := x mod 256.
Definition to_c16 (x : Z) : Z := x mod 65536.

(** string.hpp:217-242 toUtf8: the bytes stored into out (the return value is their number, 0 = failure) *)
Definition toUtf8 (c : Z) : list Z :=
  if c <=? 0x7f then [to_c8 c]
  else if c <=? 0x7ff then [to_c8 (Z.lor (Z.shiftr c 6) 0xc0); to_c8 (Z.lor (Z.land c 0x3f) 0x80)]
  else if c <=? 0xffff then
    if (0xd7ff <? c) && (c <=? 0xdfff) then []
    else [to_c8 (Z.lor (Z.shiftr c 12) 0xe0); to_c8 (Z.lor (Z.land (Z.shiftr c 6) 0x3f) 0x80); to_c8 (Z.lor (Z.land c 0x3f) 0x80)]
  else if c <=? 0x10ffff then
    [to_c8 (Z.lor (Z.shiftr c 18) 0xf0); to_c8 (Z.lor (Z.land (Z.shiftr c 12) 0x3f) 0x80);
     to_c8 (Z.lor (Z.land (Z.shiftr c 6) 0x3f) 0x80); to_c8 (Z.lor (Z.land c 0x3f) 0x80)]
  else [].

(** string.hpp:244-255 toUtf16 *)
Definition toUtf16 (c : Z) : list Z :=
  if c <=? 0xffff then [to_c16 c]
  else if c <=? 0x10ffff then [to_c16 (Z.shiftr c 10 + 0xd7c0); to_c16 (Z.lor (Z.land c 0x3ff) 0xdc00)]
  else [].

(** string.hpp:257-266, 268-277 AppendUtf8, AppendUtf16: (returned bool, out) *)
Definition AppendUtf8 (out : list Z) (c : Z) : bool * list Z :=
  let b := toUtf8 c in if 0 <? zlen b then (true, out ++ b) else (false, out).
Definition AppendUtf16 (out : list Z) (c : Z) : bool * list Z :=
  let b := toUtf16 c in if 0 <? zlen b then (true, out ++ b) else (false, out).

(** string.hpp:1439-1446 String::toUtf8(str), 1456-1463 String::toUtf16(str) *)
Fixpoint String_toUtf8 (s : list Z) (out : list Z) : res (list Z) :=
  match s with
  | [] => Ok out
  | c :: r => let (b, out) := AppendUtf8 out c in if b then String_toUtf8 r out else Exn
  end.
Fixpoint String_toUtf16 (s : list Z) (out : list Z) : res (list Z) :=
  match s with
  | [] => Ok out
  | c :: r => let (b, out) := AppendUtf16 out c in if b then String_toUtf16 r out else Exn
  end.
(** string.hpp:1475-1481 String::isValid *)
Definition String_isValid (s : list Z) : bool := forallb IsValidChar s.

(** string.hpp:555-564, 1535-1542 String::append(begin, end) of char: decode all *)
Fixpoint append8 (fuel : nat) (acc : list Z) (s : list Z) : res (list Z) :=
  match s with
  | [] => Ok acc
  | _ => match fuel with
         | O => Fuel
         | S f => let! (c, s) := GetCharFromUtf8 s in
                  match c with Some c => append8 f (acc ++ [c]) s | None => Exn end
         end
  end.
Definition String_append8 (str s : list Z) := append8 (length s) str s.
(** string.hpp:588-598 String::append(const Char16*, const Char16* ) *)
Fixpoint append16 (fuel : nat) (acc : list Z) (s : list Z) : res (list Z) :=
  match s with
  | [] => Ok acc
  | _ => match fuel with
         | O => Fuel
         | S f => let! (c, s) := GetCharFromUtf16 s in
                  match c with Some c => append16 f (acc ++ [c]) s | None => Exn end
         end
  end.
Definition String_append16 (str s : list Z) := append16 (length s) str s.

(** string.hpp:1612-1623 ConvertUtf16ToUtf8; result (returned bool, out) *)
Fixpoint conv16 (fuel : nat) (out : list Z) (s : list Z) : res (bool * list Z) :=
  match s with
  | [] => Ok (true, out)
  | _ => match fuel with
         | O => Fuel
         | S f => let! (c, s) := GetCharFromUtf16 s in
                  match c with
                  | None => Ok (false, out)
                  | Some c => let (b, out) := AppendUtf8 out c in
                              if b then conv16 f out s else Ok (false, out)
                  end
         end
  end.
Definition ConvertUtf16ToUtf8 (s : list Z) := conv16 (length s) [] s.
(** string.hpp:1629-1640 ConvertUtf8ToUtf16 *)
Fixpoint conv8 (fuel : nat) (out : list Z) (s : list Z) : res (bool * list Z) :=
  match s with
  | [] => Ok (true, out)
  | _ => match fuel with
         | O => Fuel
         | S f => let! (c, s) := GetCharFromUtf8 s in
                  match c with
                  | None => Ok (false, out)
                  | Some c => let (b, out) := AppendUtf16 out c in
                              if b then conv8 f out s else Ok (false, out)
                  end
         end
  end.
Definition ConvertUtf8ToUtf16 (s : list Z) := conv8 (length s) [] s.
(** string.hpp:1647-1659 ToUtf16, ToUtf8 *)
Definition ToUtf16 (s : list Z) : res (list Z) := let! (b, out) := ConvertUtf8ToUtf16 s in if b then Ok out else Exn.
Definition ToUtf8 (s : list Z) : res (list Z) := let! (b, out) := ConvertUtf16ToUtf8 s in if b then Ok out else Exn.

(** string.hpp:1661-1685 Utf8ref::next: None = end of the text *)
Fixpoint ref_next (fuel : nat) (ignoreBadChar : bool) (s : list Z) : res (option Z * list Z) :=
  match s with
  | [] => Ok (None, [])
  | _ => match fuel with
         | O => Fuel
         | S f => let! (c, s) := GetCharFromUtf8 s in
                  match c with
                  | Some c => Ok (Some c, s)
                  | None => if ignoreBadChar then ref_next f ignoreBadChar s else Exn
                  end
         end
  end.
Definition Utf8ref_next ign (s : list Z) := ref_next (length s) ign s.
