(** Model of misc/make_select8tbl.cpp, the program that prints the table of include/cybozu/select8.hpp *)
Require Import Verif.Common Verif.Text Verif.ExceptionModel.

(** make_select8tbl.cpp:8-13: the loop from i, n steps are left; count is the number of set bits seen *)
Fixpoint gen_loop (n : nat) (v r i count : Z) : Z :=
  match n with
  | O => 64
  | S n =>
    let count := if Z.testbit v i then count + 1 else count in
    if count =? r then i else gen_loop n v r (i + 1) count
  end.
(** make_select8tbl.cpp:5-15 select8; v is a uint64_t, r a size_t *)
Definition gen_select8 (v r : Z) : Z := gen_loop 64 v r 0 0.
(** make_select8tbl.cpp:17-26 main: the rows; printf("%d") of a uint64_t below 2^31 prints it on the usual ABIs (formally the type does not
    match) *)
Definition gen_row (x : Z) : list Z := map (fun i => gen_select8 x (Z.of_nat i)) (seq 0 8).
Definition gen_table : list (list Z) := map (fun x => gen_row (Z.of_nat x)) (seq 0 256).
Definition gen_print : list Z := flat_map (fun row => str "{" ++ flat_map (fun c => printf_d c ++ str ", ") row ++ str "}," ++ [10]) gen_table.
