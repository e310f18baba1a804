(** RFC 4648 section 4, written arithmetically. *)
Require Import Verif.Common Verif.Text.

(** the 64 symbols *)
Definition symbol (v : Z) : Z :=
  if v <? 26 then 65 + v            (* A-Z *)
  else if v <? 52 then 97 + (v - 26) (* a-z *)
  else if v <? 62 then 48 + (v - 52) (* 0-9 *)
  else if v =? 62 then 43 (* + *) else 47 (* / *).
(** value of a symbol; None for any other byte (including the pad '=') *)
Definition symbol_value (c : Z) : option Z :=
  if (65 <=? c) && (c <=? 90) then Some (c - 65)
  else if (97 <=? c) && (c <=? 122) then Some (c - 97 + 26)
  else if (48 <=? c) && (c <=? 57) then Some (c - 48 + 52)
  else if c =? 43 then Some 62 else if c =? 47 then Some 63 else None.

(** 24-bit groups; one or two pad characters at the end *)
Fixpoint rfc4648 (l : list Z) : list Z :=
  match l with
  | [] => []
  | [a] => let n := a * 16 in [symbol (n / 64); symbol (n mod 64); 61; 61]
  | [a; b] => let n := (a * 256 + b) * 4 in [symbol (n / 4096); symbol (n / 64 mod 64); symbol (n mod 64); 61]
  | a :: b :: c :: r =>
      let n := a * 65536 + b * 256 + c in
      symbol (n / 262144) :: symbol (n / 4096 mod 64) :: symbol (n / 64 mod 64) :: symbol (n mod 64) :: rfc4648 r
  end.

(** every line but the last has exactly L characters, the last has 1..L *)
Fixpoint lines_of (L : Z) (lines : list (list Z)) : Prop :=
  match lines with
  | [] => True
  | [x] => 1 <= zlen x <= L
  | x :: r => zlen x = L /\ lines_of L r
  end.
Definition end_of_line (mode : Z) : list Z :=
  if mode =? 2 then [] else if mode =? 1 then [13; 10] else [10].
(** [text] is [content] laid out in lines *)
Definition laid_out (L mode : Z) (content text : list Z) : Prop :=
  exists lines, concat lines = content /\ lines_of L lines /\
    text = concat (map (fun line => line ++ end_of_line mode) lines).

(** 6-bit values to bytes; left-over bits of an incomplete group are dropped *)
Fixpoint regroup (v : list Z) : list Z :=
  match v with
  | a :: b :: c :: d :: r =>
      let n := a * 262144 + b * 4096 + c * 64 + d in n / 65536 :: n / 256 mod 256 :: n mod 256 :: regroup r
  | [a; b; c] => let n := a * 4096 + b * 64 + c in [n / 1024; n / 4 mod 256]
  | [a; b] => [(a * 64 + b) / 16]
  | _ => []
  end.
(** the values of the alphabet characters of a text, everything else ignored *)
Definition symbols_of (text : list Z) : list Z :=
  flat_map (fun c => match symbol_value c with Some v => [v] | None => [] end) text.
