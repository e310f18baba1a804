(** Model of include/cybozu/benchmark.hpp: CpuClock and the loops of the CYBOZU_BENCH macros.
    The clock is a schedule: the values getCpuClk returns, in order (a new one per call). *)
Require Import Verif.Common.

(** benchmark.hpp:150-151 members of CpuClock: clock_ (uint64_t), count_ (int) *)
Record clk := { clock_ : Z; count_ : Z }.
(** benchmark.hpp:95-99 CpuClock() *)
Definition newClk : clk := {| clock_ := 0; count_ := 0 |}.
(** benchmark.hpp:100-103 begin; t is what getCpuClk returns *)
Definition begin_ (c : clk) (t : Z) : clk := {| clock_ := (clock_ c - t) mod 2 ^ 64; count_ := count_ c |}.
(** benchmark.hpp:104-108 end; count_++ on int *)
Definition end_ (c : clk) (t : Z) : res clk :=
  if count_ c + 1 <? 2 ^ 31 then Ok {| clock_ := (clock_ c + t) mod 2 ^ 64; count_ := count_ c + 1 |} else UB.
(** benchmark.hpp:111 clear *)
Definition clear_ (c : clk) : clk := {| clock_ := 0; count_ := 0 |}.
(** calls of a user of CpuClock *)
Inductive op := O_begin (t : Z) | O_end (t : Z) | O_clear.
Definition step (c : clk) (o : op) : res clk :=
  match o with O_begin t => Ok (begin_ c t) | O_end t => end_ c t | O_clear => Ok (clear_ c) end.
Fixpoint steps (c : clk) (os : list op) : res clk :=
  match os with [] => Ok c | o :: os => let! c := step c o in steps c os end.

(** benchmark.hpp:140-148 the constants (the same in both builds, except loopN1) *)
Definition loopN2 : nat := 100.
Definition maxClk : Z := 10 ^ 8.

(** the inner loop: for (j = 0; j < n; j++) func(...) on the world of the measured code; the function
    also takes time: its calls do not read the clock *)
Fixpoint repeat_f {W} (f : W -> W) (n : nat) (w : W) : W := match n with O => w | S n => repeat_f f n (f w) end.
(** benchmark.hpp:168-174, 187-193 the loop of CYBOZU_BENCH and CYBOZU_BENCH_T.  ticks i: the two clock
    readings of round i; n1 is loopN1.  Result: the world, the clock, the number of rounds. *)
Fixpoint bench_loop {W} (f : W -> W) (n1 : nat) (ticks : nat -> Z * Z) (k i : nat) (w : W) (c : clk) : res (W * clk) :=
  match k with
  | O => Ok (w, c)
  | S k =>
    let c := begin_ c (fst (ticks i)) in
    let w := repeat_f f n1 w in
    let! c := end_ c (snd (ticks i)) in
    if maxClk <? clock_ c then Ok (w, c) else bench_loop f n1 ticks k (S i) w c
  end.
Definition bench {W} (f : W -> W) (n1 : nat) (ticks : nat -> Z * Z) (w : W) : res (W * clk) :=
  bench_loop f n1 ticks loopN2 0 w newClk.
(** benchmark.hpp:202-210 CYBOZU_BENCH_C: N calls (none if N <= 0), one measurement *)
Definition bench_c {W} (f : W -> W) (N : Z) (t : Z * Z) (w : W) : res (W * clk) :=
  let c := begin_ newClk (fst t) in
  let w := repeat_f f (Z.to_nat N) w in
  let! c := end_ c (snd t) in Ok (w, c).
