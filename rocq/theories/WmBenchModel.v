(** Model of sample/wm_bench_smpl.cpp: the class Naive and the comparison of its select with that of WaveletMatrix.
    Not the measured loops, nor the options. *)
Require Import Verif.Common Verif.SucModel Verif.WaveletModel.

(** wm_bench_smpl.cpp:17-20 get *)
Definition nv_get (v : list Z) (pos : Z) : res Z := rd v pos.
(** wm_bench_smpl.cpp:21-24 rank: std::count over [begin, begin + pos) *)
Fixpoint count_to (v : list Z) (val : Z) (n : nat) : res Z :=
  match n, v with
  | O, _ => Ok 0
  | S _, [] => UB
  | S n, x :: r => let! c := count_to r val n in Ok ((if x =? val then 1 else 0) + c)
  end.
Definition nv_rank (v : list Z) (val pos : Z) : res Z := count_to v val (Z.to_nat pos).
(** wm_bench_smpl.cpp:25-32 rankLt: i goes up to pos *)
Fixpoint lt_loop (n : nat) (v : list Z) (val i ret : Z) : res Z :=
  match n with
  | O => Ok ret
  | S n => let! x := rd v i in lt_loop n v val (i + 1) (if x <? val then ret + 1 else ret)
  end.
Definition nv_rankLt (v : list Z) (val pos : Z) : res Z := lt_loop (Z.to_nat pos) v val 0 0.
(** wm_bench_smpl.cpp:33-42 select: r is what is left of v from i on; n is a size_t *)
Fixpoint sel_loop (r : list Z) (val n i : Z) : Z :=
  match r with
  | [] => NotFound
  | x :: r => let n := if x =? val then (n - 1) mod 2 ^ 64 else n in if n =? 0 then i else sel_loop r val n (i + 1)
  end.
Definition nv_select (v : list Z) (val n : Z) : Z := sel_loop v val ((n + 1) mod 2 ^ 64) 0.
(** wm_bench_smpl.cpp:101-121 the comparison for the pairs of tbl: does it reach "select ok"? *)
Fixpoint check (x64 wide withSelect : bool) (w : wmatrix) (v : list Z) (tbl : list (Z * Z)) : res bool :=
  match tbl with
  | [] => Ok true
  | (c, pos) :: t =>
    let a := nv_select v c pos in
    let! b := wm_select x64 wide withSelect w c pos in
    if a =? b then check x64 wide withSelect w v t else Ok false
  end.
