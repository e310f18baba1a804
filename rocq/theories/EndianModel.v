(** Model of include/cybozu/endian.hpp.  The memory behind the pointer argument is a byte list. *)
Require Import Verif.Common.

(** object representation of an n-byte unsigned integer on a little-endian machine *)
Fixpoint to_le (n : nat) (x : Z) : list Z :=
  match n with O => [] | S n' => x mod 256 :: to_le n' (x / 256) end.
Fixpoint of_le (l : list Z) : Z :=
  match l with [] => 0 | b :: r => b + 256 * of_le r end.

(** memcpy of n bytes out of / into the memory *)
Definition peek (n : nat) (p : list Z) : res (list Z) :=
  if (length p <? n)%nat then UB else Ok (firstn n p).
Definition poke (p : list Z) (bs : list Z) : res (list Z) :=
  if (length p <? length bs)%nat then UB else Ok (bs ++ skipn (length bs) p).

(** endian.hpp:15-17, 20, 24, 25: the compiler intrinsics, documented to reverse the bytes *)
Definition byteSwap (n : nat) (x : Z) : Z := of_le (rev (to_le n x)).
(** endian.hpp:22: the 16-bit version for old compilers *)
Definition byteSwap16_old (x : Z) : Z := Z.lor (Z.shiftr x 8) (Z.shiftl x 8) mod 2 ^ 16.

(** [little] selects the #if branch: CYBOZU_ENDIAN == CYBOZU_ENDIAN_LITTLE *)

(** endian.hpp:32-42 *)
Definition Get16bitAsLE (little : bool) (p : list Z) : res Z :=
  if little then let! b := peek 2 p in Ok (of_le b)
  else let! b0 := rd p 0 in let! b1 := rd p 1 in Ok (Z.lor b0 (Z.shiftl b1 8)).
(** endian.hpp:48-58 *)
Definition Get32bitAsLE (little : bool) (p : list Z) : res Z :=
  if little then let! b := peek 4 p in Ok (of_le b)
  else let! x := Get16bitAsLE little p in let! y := Get16bitAsLE little (skipn 2 p) in
       Ok (Z.lor x (Z.shiftl y 16)).
(** endian.hpp:64-74 *)
Definition Get64bitAsLE (little : bool) (p : list Z) : res Z :=
  if little then let! b := peek 8 p in Ok (of_le b)
  else let! x := Get32bitAsLE little p in let! y := Get32bitAsLE little (skipn 4 p) in
       Ok (Z.lor x (Z.shiftl y 32)).
(** endian.hpp:80-90 *)
Definition Get16bitAsBE (little : bool) (p : list Z) : res Z :=
  if little then let! b := peek 2 p in Ok (byteSwap 2 (of_le b))
  else let! b1 := rd p 1 in let! b0 := rd p 0 in Ok (Z.lor b1 (Z.shiftl b0 8)).
(** endian.hpp:96-106 *)
Definition Get32bitAsBE (little : bool) (p : list Z) : res Z :=
  if little then let! b := peek 4 p in Ok (byteSwap 4 (of_le b))
  else let! x := Get16bitAsBE little (skipn 2 p) in let! y := Get16bitAsBE little p in
       Ok (Z.lor x (Z.shiftl y 16)).
(** endian.hpp:112-122 *)
Definition Get64bitAsBE (little : bool) (p : list Z) : res Z :=
  if little then let! b := peek 8 p in Ok (byteSwap 8 (of_le b))
  else let! x := Get32bitAsBE little (skipn 4 p) in let! y := Get32bitAsBE little p in
       Ok (Z.lor x (Z.shiftl y 32)).

(** static_cast<uint8_t> / <uint32_t> *)
Definition u8 (x : Z) : Z := x mod 2 ^ 8.
Definition u32 (x : Z) : Z := x mod 2 ^ 32.

(** applying an operation at p + k *)
Definition at_off (k : nat) (p : list Z) (f : list Z -> res (list Z)) : res (list Z) :=
  if (length p <? k)%nat then UB else let! q := f (skipn k p) in Ok (firstn k p ++ q).

(** endian.hpp:129-138 *)
Definition Set16bitAsLE (little : bool) (p : list Z) (x : Z) : res (list Z) :=
  if little then poke p (to_le 2 x)
  else let! p := wr p 0 (u8 x) in wr p 1 (u8 (Z.shiftr x 8)).
(** endian.hpp:144-155 *)
Definition Set32bitAsLE (little : bool) (p : list Z) (x : Z) : res (list Z) :=
  if little then poke p (to_le 4 x)
  else let! p := wr p 0 (u8 x) in let! p := wr p 1 (u8 (Z.shiftr x 8)) in
       let! p := wr p 2 (u8 (Z.shiftr x 16)) in wr p 3 (u8 (Z.shiftr x 24)).
(** endian.hpp:161-170 *)
Definition Set64bitAsLE (little : bool) (p : list Z) (x : Z) : res (list Z) :=
  if little then poke p (to_le 8 x)
  else let! p := Set32bitAsLE little p (u32 x) in
       at_off 4 p (fun q => Set32bitAsLE little q (u32 (Z.shiftr x 32))).
(** endian.hpp:176-186 *)
Definition Set16bitAsBE (little : bool) (p : list Z) (x : Z) : res (list Z) :=
  if little then poke p (to_le 2 (byteSwap 2 x))
  else let! p := wr p 0 (u8 (Z.shiftr x 8)) in wr p 1 (u8 x).
(** endian.hpp:192-204 *)
Definition Set32bitAsBE (little : bool) (p : list Z) (x : Z) : res (list Z) :=
  if little then poke p (to_le 4 (byteSwap 4 x))
  else let! p := wr p 0 (u8 (Z.shiftr x 24)) in let! p := wr p 1 (u8 (Z.shiftr x 16)) in
       let! p := wr p 2 (u8 (Z.shiftr x 8)) in wr p 3 (u8 x).
(** endian.hpp:210-220 *)
Definition Set64bitAsBE (little : bool) (p : list Z) (x : Z) : res (list Z) :=
  if little then poke p (to_le 8 (byteSwap 8 x))
  else let! p := Set32bitAsBE little p (u32 (Z.shiftr x 32)) in
       at_off 4 p (fun q => Set32bitAsBE little q (u32 x)).
