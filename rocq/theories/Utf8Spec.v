(** The Unicode standard's encoding forms, arithmetically. *)
Require Import Verif.Common.
(** Unicode scalar value *)
Definition scalar (v : Z) : Prop := 0 <= v <= 0xd7ff \/ 0xe000 <= v <= 0x10ffff.
Definition utf8 (v : Z) : list Z :=
  if v <? 0x80 then [v]
  else if v <? 0x800 then [0xc0 + v / 64; 0x80 + v mod 64]
  else if v <? 0x10000 then [0xe0 + v / 4096; 0x80 + v / 64 mod 64; 0x80 + v mod 64]
  else [0xf0 + v / 262144; 0x80 + v / 4096 mod 64; 0x80 + v / 64 mod 64; 0x80 + v mod 64].
Definition utf16 (v : Z) : list Z :=
  if v <? 0x10000 then [v]
  else [0xd800 + (v - 0x10000) / 1024; 0xdc00 + (v - 0x10000) mod 1024].
(** texts *)
Definition utf8_text (l : list Z) : list Z := concat (map utf8 l).
Definition utf16_text (l : list Z) : list Z := concat (map utf16 l).
Definition scalars (l : list Z) : Prop := Forall scalar l.
Definition code_units16 (s : list Z) : Prop := Forall (fun u => 0 <= u < 65536) s.
