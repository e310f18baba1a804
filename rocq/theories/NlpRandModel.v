(** Model of include/cybozu/nlp/random.hpp.
    A finite double is an integer, in units of 2^-1127 (the smallest subnormal, 2^-1074, is 2^53 units, so that its
    product with a multiple of 2^-53 is still an integer). *)
Require Import Verif.Common.
Ltac Zify.zify_post_hook ::= idtac.

(** ** binary64 arithmetic, round to nearest, ties to even *)
Definition one : Z := 2 ^ 1127.
Definition of_int (n : Z) : Z := n * one.
(** n / d rounded to the nearest integer, ties to even *)
Definition rne (n d : Z) : Z :=
  let q := n / d in let r := n mod d in
  if 2 * r <? d then q else if d <? 2 * r then q + 1 else if Z.even q then q else q + 1.
(** n / 2^s units rounded to 53 significant bits, and to a multiple of 2^-1074 *)
Definition rpos (n s : Z) : Z := let e := Z.max 53 (Z.log2 n - s - 52) in rne n (2 ^ (s + e)) * 2 ^ e.
Definition rnd (n s : Z) : Z := if n <? 0 then - rpos (- n) s else rpos n s.
(** None: the result is infinite *)
Definition fin (v : Z) : option Z := if Z.abs v <? 2 ^ 2151 then Some v else None.
Definition fadd (x y : Z) : option Z := fin (rnd (x + y) 0).
Definition fsub (x y : Z) : option Z := fin (rnd (x - y) 0).
Definition fmul (x y : Z) : option Z := fin (rnd (x * y) 1127).
Definition obind {A B} (m : option A) (k : A -> option B) : option B := match m with Some a => k a | None => None end.

(** random.hpp:37-43 getDouble; w1, w2: the results of the two calls of get32.
    double(1U << 26) and 1.0 / double(1LL << 53) are the exact constants 2^26 and 2^-53 *)
Definition getDouble (a b w1 w2 : Z) : option Z :=
  let x := Z.shiftr w1 5 in
  let y := Z.shiftr w2 6 in
  obind (fmul (of_int x) (of_int (2 ^ 26))) (fun t =>
  obind (fadd t (of_int y)) (fun t =>
  obind (fmul t (2 ^ 1074)) (fun z =>
  obind (fsub b a) (fun d =>
  obind (fmul d z) (fun p => fadd p a))))).
(** random.hpp:22-27 the constructor: bounds, and the seed given to XorShift *)
Record uniform := mk_u { a_ : Z; b_ : Z; rg : Z }.
Definition uniform_new (a b seed : Z) : uniform := mk_u a b seed.
(** random.hpp:54-59 the constructor: gen_(seed) is UniformRandomGenerator(double a = seed, double b = 1, int seed = 0) *)
Record normal := mk_n { gen_ : uniform; u_ : Z; s_ : Z }.
Definition normal_new (u s seed : Z) : normal := mk_n (uniform_new (of_int seed) (of_int 1) 0) u s.
(** random.hpp:64-71 get: the sum of as many samples as pairs are given; the code gives 12 *)
Fixpoint sumup (g : uniform) (sum : Z) (ws : list (Z * Z)) : option Z :=
  match ws with
  | [] => Some sum
  | (w1, w2) :: ws => obind (getDouble (a_ g) (b_ g) w1 w2) (fun v => obind (fadd sum v) (fun sum => sumup g sum ws))
  end.
Definition normal_get (n : normal) (ws : list (Z * Z)) : option Z :=
  obind (sumup (gen_ n) (of_int (-6)) ws) (fun sum => obind (fmul sum (s_ n)) (fun p => fadd p (u_ n))).
