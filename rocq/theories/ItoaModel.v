(** Model of include/cybozu/itoa.hpp.  A caller buffer is a list of bytes of length bufSize. *)
Require Import Verif.Common.

(** hexTbl[upCase][d]  itoa.hpp:36-40 and 90-94 *)
Definition hex_char (upCase : bool) (d : Z) : Z :=
  if d <? 10 then 48 + d else if upCase then 55 + d else 87 + d.

(** cybozu::bsr (bit_operation.hpp) on a nonzero x: index of the highest set bit. *)
Definition bsr (x : Z) : Z := Z.log2 x.

(** itoa.hpp:17-21 *)
Definition getHexLength (x : Z) : Z := if x =? 0 then 1 else bsr x / 4 + 1.
(** itoa.hpp:23-27 *)
Definition getBinLength (x : Z) : Z := if x =? 0 then 1 else bsr x + 1.

(** itoa.hpp:41-44 loop of itohex: iteration i writes out[len-i-1]; k = len - i iterations left.
    The caller's buffer is out; writes outside are UB. *)
Fixpoint itohex_loop (out : list Z) (k : nat) (x : Z) (upCase : bool) : res (list Z) :=
  match k with
  | O => Ok out
  | S k' =>
    let! out' := wr out (Z.of_nat k') (hex_char upCase (x mod 16)) in
    itohex_loop out' k' (x / 16) upCase
  end.
(** itoa.hpp:33-45 *)
Definition itohex (out : list Z) (len : Z) (x : Z) (upCase : bool) : res (list Z) :=
  itohex_loop out (Z.to_nat len) x upCase.

(** itoa.hpp:54-57 *)
Fixpoint itobin_loop (out : list Z) (k : nat) (x : Z) : res (list Z) :=
  match k with
  | O => Ok out
  | S k' =>
    let! out' := wr out (Z.of_nat k') (48 + Z.land x 1) in
    itobin_loop out' k' (Z.shiftr x 1)
  end.
(** itoa.hpp:51-58 *)
Definition itobin (out : list Z) (len : Z) (x : Z) : res (list Z) := itobin_loop out (Z.to_nat len) x.

(** itoa.hpp:72-77 / 95-100 / 113-118: the common loop of uintToDec, uintToHex, uintToBin.
    [i] is the loop counter, [k] = bufSize - i; [dig] gives the character for the lowest digit and
    [nxt] drops it.  Returns (buffer, written size). *)
Fixpoint put_loop (dig nxt : Z -> Z) (buf : list Z) (k : nat) (i : Z) (x : Z) : res (list Z * Z) :=
  match k with
  | O => Ok (buf, 0)
  | S k' =>
    let! buf' := wr buf (Z.of_nat k') (dig x) in
    if nxt x =? 0 then Ok (buf', i + 1) else put_loop dig nxt buf' k' (i + 1) (nxt x)
  end.
(** itoa.hpp:69-78 *)
Definition uintToDec (buf : list Z) (bufSize : Z) (x : Z) : res (list Z * Z) :=
  put_loop (fun x => 48 + x mod 10) (fun x => x / 10) buf (Z.to_nat bufSize) 0 x.
(** itoa.hpp:87-101 *)
Definition uintToHex (buf : list Z) (bufSize : Z) (x : Z) (upCase : bool) : res (list Z * Z) :=
  put_loop (fun x => hex_char upCase (x mod 16)) (fun x => x / 16) buf (Z.to_nat bufSize) 0 x.
(** itoa.hpp:110-119 *)
Definition uintToBin (buf : list Z) (bufSize : Z) (x : Z) : res (list Z * Z) :=
  put_loop (fun x => 48 + Z.land x 1) (fun x => Z.shiftr x 1) buf (Z.to_nat bufSize) 0 x.

Definition LLONG_MIN : Z := -9223372036854775808.
(** "-9223372036854775808" itoa.hpp:125 *)
Definition minStr : list Z := [45;57;50;50;51;51;55;50;48;51;54;56;53;52;55;55;53;56;48;56].

(** memcpy(buf + off, s, |s|); UB if it does not fit *)
Definition memcpy_at (buf : list Z) (off : Z) (s : list Z) : res (list Z) :=
  if (off <? 0) || (zlen buf <? off + zlen s) then UB
  else Ok (firstn (Z.to_nat off) buf ++ s ++ skipn (Z.to_nat (off + zlen s)) buf).

(** itoa.hpp:121-144, T = long long *)
Definition intToDec (buf : list Z) (bufSize : Z) (x : Z) : res (list Z * Z) :=
  if x =? LLONG_MIN then
    let minStrLen := zlen minStr in
    if bufSize <? minStrLen then Ok (buf, 0)
    else
      let! buf' := memcpy_at buf (bufSize - minStrLen) minStr in
      Ok (buf', minStrLen)
  else
  let negative := x <? 0 in
  let absX := if negative then - x else x in
  let! (buf1, n) := uintToDec buf bufSize absX in
  if n =? 0 then Ok (buf1, 0) else
  if negative then
    if bufSize =? n then Ok (buf1, 0)
    else
      let! buf2 := wr buf1 (bufSize - (n + 1)) 45 in
      Ok (buf2, n + 1)
  else Ok (buf1, n).

(** out.assign(buf + 40 - n, n); reading outside buf is UB *)
Definition assign_tail (buf : list Z) (n : Z) : res (list Z) :=
  if (n <? 0) || (zlen buf <? n) then UB
  else Ok (firstn (Z.to_nat n) (skipn (Z.to_nat (zlen buf - n)) buf)).

(** itoa.hpp:147-154; [garbage] is the uninitialised char buf[40] *)
Definition convertFromUint (garbage : list Z) (x : Z) : res (list Z) :=
  let! (buf, n) := uintToDec garbage 40 x in
  assign_tail buf n.
(** itoa.hpp:156-162 *)
Definition convertFromInt (garbage : list Z) (x : Z) : res (list Z) :=
  let! (buf, n) := intToDec garbage 40 x in
  assign_tail buf n.

(** itoa.hpp:189-222 overloads; signed = int / long long, unsigned = unsigned int / unsigned long long *)
Definition itoa (signed : bool) (garbage : list Z) (x : Z) : res (list Z) :=
  if signed then convertFromInt garbage x else convertFromUint garbage x.

(** two's complement reinterpretation of the low 32 bits: static_cast<int> *)
Definition to_int32 (x : Z) : Z := (x + 2 ^ 31) mod 2 ^ 32 - 2 ^ 31.
(** itoa.hpp:226 (8-byte long) and :229 (4-byte long) for unsigned long *)
Definition itoa_ulong (long8 : bool) (garbage : list Z) (x : Z) : res (list Z) :=
  if long8 then convertFromUint garbage x else convertFromInt garbage (to_int32 x).

(** itoa.hpp:164-170; T has [nbytes] bytes.  out.resize(size) gives a buffer of zeros. *)
Definition itohexLocal (nbytes : Z) (x : Z) (upCase withZero : bool) : res (list Z) :=
  let size := if withZero then nbytes * 2 else getHexLength x in
  itohex (repeat 0 (Z.to_nat size)) size x upCase.
(** itoa.hpp:172-178 *)
Definition itobinLocal (nbytes : Z) (x : Z) (withZero : bool) : res (list Z) :=
  let size := if withZero then nbytes * 8 else getBinLength x in
  itobin (repeat 0 (Z.to_nat size)) size x.

(** itoa.hpp:319-333 *)
Definition itoaWithZero (signed : bool) (garbage : list Z) (x len c : Z) : res (list Z) :=
  let! ret := itoa signed garbage x in
  if zlen ret <? len then
    let zero := repeat c (Z.to_nat (len - zlen ret)) in
    if 0 <=? x then Ok (zero ++ ret) else Ok ([45] ++ zero ++ skipn 1 ret)
  else Ok ret.
