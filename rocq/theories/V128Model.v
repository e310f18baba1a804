(** Model of include/cybozu/v128.hpp (128-bit values as numbers, lanes as the SSE manual describes them)
    and of the portable branches of include/cybozu/bit_operation.hpp. *)
Require Import Verif.Common.

(** a V128 is a number below 2^128, [x3:x2:x1:x0]; the 64-bit lanes *)
Definition lo64 (x : Z) : Z := x mod 2 ^ 64.
Definition hi64 (x : Z) : Z := x / 2 ^ 64.
Definition of64 (h l : Z) : Z := h * 2 ^ 64 + l.
(** v128.hpp:46-50, 70-73 V128(x3, x2, x1, x0), set *)
Definition set4 (x3 x2 x1 x0 : Z) : Z := ((x3 * 2 ^ 32 + x2) * 2 ^ 32 + x1) * 2 ^ 32 + x0.
(** v128.hpp:118-121 movd, 370-373 movq *)
Definition movd (x : Z) : Z := x mod 2 ^ 32.
Definition movq (x : Z) : Z := x mod 2 ^ 64.
(** v128.hpp:128-138 psrldq, pslldq: shift the register by bytes *)
Definition psrldq (n x : Z) : Z := Z.shiftr x (8 * n).
Definition pslldq (n x : Z) : Z := Z.shiftl x (8 * n) mod 2 ^ 128.
(** v128.hpp:140-160 psrlq, psllq: shift each 64-bit lane by bits, a count of 64 or more gives 0 *)
Definition psrlq (n x : Z) : Z := if n <? 64 then of64 (Z.shiftr (hi64 x) n) (Z.shiftr (lo64 x) n) else 0.
Definition psllq (n x : Z) : Z :=
  if n <? 64 then of64 (Z.shiftl (hi64 x) n mod 2 ^ 64) (Z.shiftl (lo64 x) n mod 2 ^ 64) else 0.
(** v128.hpp:162-166 palignr: [a:b] shifted right by n bytes, the lower half *)
Definition palignr (n a b : Z) : Z := Z.shiftr (a * 2 ^ 128 + b) (8 * n) mod 2 ^ 128.
(** v128.hpp:212-215 por *)
Definition por (a b : Z) : Z := Z.lor a b.

(** v128.hpp:317-329 shrBit<n>, 331-343 shlBit<n>.  The header writes a | b for two V128; no operator|
    for V128 exists in the repository, so the members cannot be instantiated as they stand.  They are
    modelled with | read as por, the only sensible definition. *)
Definition shrBit (n x : Z) : Z := por (psrlq n x) (psllq (64 - n) (psrldq 8 x)).
Definition shlBit (n x : Z) : Z := por (psllq n x) (psrlq (64 - n) (pslldq 8 x)).

(** v128.hpp:348-355 rotrByte<n>(x0, x1, x2) *)
Definition rotrByte (n x0 x1 x2 : Z) : Z * Z * Z :=
  let t := x0 in
  let x0 := palignr n x1 x0 in
  let x1 := palignr n x2 x1 in
  let x2 := palignr n t x2 in (x0, x1, x2).
(** v128.hpp:360-367 rotlByte<n>(x0, x1, x2) *)
Definition rotlByte (n x0 x1 x2 : Z) : Z * Z * Z :=
  let t := x2 in
  let x2 := palignr (16 - n) x2 x1 in
  let x1 := palignr (16 - n) x1 x0 in
  let x0 := palignr (16 - n) x0 t in (x0, x1, x2).

(** memory as aligned 16-byte blocks; v128.hpp:29-32, 75-78 load, store; 305-310 swap128, 312-315 copy128 *)
Definition swap128 (mem : list Z) (p q : Z) : res (list Z) :=
  let! t := rd mem p in
  let! u := rd mem q in
  let! mem := wr mem p u in
  wr mem q t.
Definition copy128 (mem : list Z) (dest src : Z) : res (list Z) := let! u := rd mem src in wr mem dest u.

(** ** bit_operation.hpp: the branches for compilers with 32-bit builtins only.
    __builtin_ctz, __builtin_clz of GCC: undefined for 0 *)
Fixpoint ctz_fuel (n : nat) (x : Z) : Z :=
  match n with O => 0 | S n => if Z.odd x then 0 else 1 + ctz_fuel n (x / 2) end.
Definition builtin_ctz (x : Z) : res Z := if x =? 0 then UB else Ok (ctz_fuel 32 x).
Fixpoint bits_fuel (n : nat) (x : Z) : Z := match n with O => 0 | S n => if x =? 0 then 0 else 1 + bits_fuel n (x / 2) end.
Definition builtin_clz (x : Z) : res Z := if x =? 0 then UB else Ok (32 - bits_fuel 32 x).
(** bit_operation.hpp:24-44 Tag<false>::bsf, bsr *)
Definition bsf32 (x : Z) : res Z := builtin_ctz x.
Definition bsr32 (x : Z) : res Z := let! c := builtin_clz x in Ok (Z.lxor c 0x1f).
(** bit_operation.hpp:60-65, 79-84 Tag<true>::bsf, bsr *)
Definition bsf64 (x : Z) : res Z :=
  let L := x mod 2 ^ 32 in
  if negb (L =? 0) then bsf32 L
  else let H := Z.shiftr x 32 mod 2 ^ 32 in let! r := bsf32 H in Ok (r + 32).
Definition bsr64 (x : Z) : res Z :=
  let H := Z.shiftr x 32 mod 2 ^ 32 in
  if negb (H =? 0) then let! r := bsr32 H in Ok (r + 32)
  else bsr32 (x mod 2 ^ 32).
(** bit_operation.hpp:101-106 makeBitMask64 (the assertion as UB) *)
Definition makeBitMask64 (x : Z) : res Z := if x <? 64 then Ok ((Z.shiftl 1 x mod 2 ^ 64 - 1) mod 2 ^ 64) else UB.
