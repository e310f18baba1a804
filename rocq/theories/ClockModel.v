(** Model of the parts of include/cybozu/time.hpp that TimeModel.v leaves out: the clock, the construction of a Time, addSec, and the time as a
    double. A Time is (time_, msec_); the clock is the struct timeval that gettimeofday fills in (a C library call, given as an argument). *)
Require Import Verif.Common Verif.TimeModel.
From Coq Require Import QArith Qabs.
Open Scope Z_scope.

(** time.hpp:223-226 (the branch for systems other than Windows): the clock shows [sec] seconds and [usec] microseconds *)
Definition setCurrentTime (sec usec : Z) : Z * Z := (sec, Z.quot usec 1000).
(** time.hpp:29-33 and 38-43 *)
Definition mkTime (time msec : Z) : Z * Z := (time, msec).
Definition setTime (st : Z * Z) (time msec : Z) : Z * Z := (time, msec).
(** time.hpp:34-37: without doSet the members are left as they are, which is uninitialised ([None]) *)
Definition Time_bool (doSet : bool) (sec usec : Z) : option (Z * Z) := if doSet then Some (setCurrentTime sec usec) else None.
(** time.hpp:76-77; reading an uninitialised member is UB *)
Definition getTime (o : option (Z * Z)) : res Z := match o with Some st => Ok (fst st) | None => UB end.
Definition getMsec (o : option (Z * Z)) : res Z := match o with Some st => Ok (snd st) | None => UB end.
(** time.hpp:79; time_t is signed with 64 bits: overflow is UB *)
Definition addSec (st : Z * Z) (sec : Z) : res (Z * Z) :=
  if in_i64 (fst st + sec) then Ok (fst st + sec, snd st) else UB.

(** IEEE 754 binary64, round to nearest, ties to even, on rational numbers. The exponent is not bounded (time.hpp meets neither subnormal
    numbers nor overflow). *)
Definition rne (n d : Z) : Z :=
  let q := n / d in let r := n mod d in
  if 2 * r <? d then q else if d <? 2 * r then q + 1 else if Z.even q then q else q + 1.
(** 2 ^ e as a fraction *)
Definition up (e : Z) : Z := 2 ^ Z.max e 0.
Definition dn (e : Z) : Z := 2 ^ Z.max (- e) 0.
(** the exponent e of n / d > 0: 2 ^ e <= n / d < 2 ^ (e + 1) *)
Definition expo (n d : Z) : Z := let k := Z.log2 n - Z.log2 d in if n * dn k <? d * up k then k - 1 else k.
Definition round_pos (n d : Z) : Q :=
  let u := expo n d - 52 in
  let m := rne (n * dn u) (d * up u) in
  (inject_Z (m * up u) / inject_Z (dn u))%Q.
Definition round (q : Q) : Q :=
  let n := Qnum q in let d := Zpos (Qden q) in
  if n =? 0 then 0%Q else if 0 <? n then round_pos n d else (- round_pos (- n) d)%Q.
(** time.hpp:78: time_ and msec_ are converted to double, 1e-3 is the double next to 1/1000; the product and the sum are rounded *)
Definition getTimeSec (st : Z * Z) : Q :=
  round (round (inject_Z (fst st)) + round (round (inject_Z (snd st)) * round (1 # 1000))).
(** time.hpp:276-279 *)
Definition GetCurrentTimeSec (sec usec : Z) : Q := getTimeSec (setCurrentTime sec usec).
