(** Model of include/cybozu/siphash.hpp and include/cybozu/hash.hpp. *)
Require Import Verif.Common Verif.EndianModel.

(** siphash.hpp:15-18 *)
Definition sip_rotate (x b : Z) : Z := Z.lor (Z.shiftl x b mod 2 ^ 64) (Z.shiftr x (64 - b)).
(** siphash.hpp:20-26, the four references returned in order *)
Definition halfRound (a b c d s t : Z) : Z * Z * Z * Z :=
  let a := (a + b) mod 2 ^ 64 in
  let c := (c + d) mod 2 ^ 64 in
  let b := Z.lxor (sip_rotate b s) a in
  let d := Z.lxor (sip_rotate d t) c in
  let a := sip_rotate a 32 in
  (a, b, c, d).
(** siphash.hpp:28-34 *)
Definition doubleRound (v : Z * Z * Z * Z) : Z * Z * Z * Z :=
  let '(v0, v1, v2, v3) := v in
  let '(v0, v1, v2, v3) := halfRound v0 v1 v2 v3 13 16 in
  let '(v2, v1, v0, v3) := halfRound v2 v1 v0 v3 17 21 in
  let '(v0, v1, v2, v3) := halfRound v0 v1 v2 v3 13 16 in
  let '(v2, v1, v0, v3) := halfRound v2 v1 v0 v3 17 21 in
  (v0, v1, v2, v3).
(** siphash.hpp:48-54 *)
Fixpoint sip_while (little : bool) (fuel : nat) (v : Z * Z * Z * Z) (inp : list Z) (srcSize : Z) : res (Z * Z * Z * Z * list Z * Z) :=
  match fuel with
  | O => Fuel
  | S f =>
    if 8 <=? srcSize then
      let! mi := Get64bitAsLE little inp in
      let '(v0, v1, v2, v3) := v in
      let '(v0, v1, v2, v3) := doubleRound (v0, v1, v2, Z.lxor v3 mi) in
      sip_while little f (Z.lxor v0 mi, v1, v2, v3) (skipn 8 inp) (srcSize - 8)
    else Ok (v, inp, srcSize)
  end.
(** siphash.hpp:57-63: one case of the switch; falls through to the smaller ones *)
Fixpoint sip_switch (n : nat) (inp : list Z) (b : Z) : res Z :=
  match n with
  | O => Ok b
  | S k => let! x := rd inp (Z.of_nat k) in sip_switch k inp (Z.lor b (Z.shiftl x (8 * Z.of_nat k)))
  end.
(** siphash.hpp:38-72 *)
Definition siphash24 (little : bool) (src : list Z) (srcSize k0 k1 : Z) : res Z :=
  let v0 := Z.lxor k0 0x736f6d6570736575 in
  let v1 := Z.lxor k1 0x646f72616e646f6d in
  let v2 := Z.lxor k0 0x6c7967656e657261 in
  let v3 := Z.lxor k1 0x7465646279746573 in
  let b := Z.shiftl srcSize 56 mod 2 ^ 64 in
  let! (v, inp, srcSize) := sip_while little (S (Z.to_nat srcSize)) (v0, v1, v2, v3) src srcSize in
  let! b := (if srcSize <? 8 then sip_switch (Z.to_nat srcSize) inp b else Ok b) in
  let '(v0, v1, v2, v3) := v in
  let '(v0, v1, v2, v3) := doubleRound (v0, v1, v2, Z.lxor v3 b) in
  let '(v0, v1, v2, v3) := doubleRound (doubleRound (Z.lxor v0 b, v1, Z.lxor v2 255, v3)) in
  Ok (Z.lxor (Z.lxor v0 v1) (Z.lxor v2 v3)).

(** hash.hpp:10-13, 20-23: the loop; *begin is converted to the unsigned type of w bits *)
Fixpoint fnv_loop (w prime : Z) (l : list Z) (v : Z) : Z :=
  match l with
  | [] => v
  | x :: r => fnv_loop w prime r ((Z.lxor v (x mod 2 ^ w) * prime) mod 2 ^ w)
  end.
(** hash.hpp:6-15 *)
Definition hash32 (l : list Z) (v : Z) : Z := fnv_loop 32 16777619 l (if v =? 0 then 2166136261 else v).
(** hash.hpp:16-26 *)
Definition hash64 (l : list Z) (v : Z) : Z :=
  let v := fnv_loop 64 1099511628211 l (if v =? 0 then 14695981039346656037 else v) in
  Z.lxor v (Z.shiftr v 32).
