(** Model of include/cybozu/nlp/top_score.hpp.  Double is a type S with the results of [>] and [<=] (which differ for NaN);
    size_t has 64 bits, int 32 (conversions to int out of range wrap, as on all supported compilers). *)
Require Import Verif.Common.

Section Top.
Context {S T : Type}.
Variables (gtb leb : S -> S -> bool) (zero : S * T).   (* zero: the value-initialised Pair of resize *)

(** top_score.hpp:16-25 *)
Record top := mk_top { maxSize : Z; tsize : Z; tbl : list (S * T) }.
(** top_score.hpp:29-34 the constructor *)
Definition top_new (n : Z) : top := mk_top n 0 (repeat zero (Z.to_nat n)).
(** top_score.hpp:35-40 setSize: the table is cleared, not resized *)
Definition setSize (t : top) (n : Z) : top := mk_top n 0 [].

Definition to_int (x : Z) : Z := (x + 2 ^ 31) mod 2 ^ 32 - 2 ^ 31.
Definition usize (x : Z) : Z := x mod 2 ^ 64.

(** top_score.hpp:52-54: n steps of for (int j = end; j >= (int)i; j--) tbl_[j + 1] = tbl_[j], the last with j = i *)
Fixpoint shift (n : nat) (i : Z) (t : list (S * T)) : res (list (S * T)) :=
  match n with
  | O => Ok t
  | Datatypes.S n => let j := i + Z.of_nat n in let! x := rd t j in let! t := wr t (j + 1) x in shift n i t
  end.
(** top_score.hpp:49-58: for (size_t i = 0; i < size_; i++); the table and pos *)
Fixpoint search (fuel : nat) (mx size i : Z) (score : S) (t : list (S * T)) : res (list (S * T) * Z) :=
  if negb (i <? size) then Ok (t, -1) else
  match fuel with
  | O => Fuel
  | Datatypes.S n =>
      let! x := rd t i in
      if gtb score (fst x) then
        let e := to_int (Z.min (usize (mx - 2)) (usize (size - 1))) in
        let! t := shift (Z.to_nat (e - to_int i + 1)) (to_int i) t in
        Ok (t, to_int i)
      else search n mx size (i + 1) score t
  end.
(** top_score.hpp:41-67 add *)
Definition add (t : top) (score : S) (idx : T) : res top :=
  let! early := (if tsize t =? maxSize t then let! x := rd (tbl t) (usize (tsize t - 1)) in Ok (leb score (fst x)) else Ok false) in
  if early then Ok t else
  let! (v, pos) := (if 0 <? tsize t then search (Z.to_nat (tsize t)) (maxSize t) (tsize t) 0 score (tbl t) else Ok (tbl t, -1)) in
  let '(pos, size) := (if tsize t <? maxSize t then (if pos <? 0 then to_int (tsize t) else pos, tsize t + 1) else (pos, tsize t)) in
  if pos =? -1 then Ok (mk_top (maxSize t) size v) else
  let! v := wr v pos (score, idx) in Ok (mk_top (maxSize t) size v).
(** top_score.hpp:68-72 getTable: resizes the table it returns *)
Definition getTable (t : top) : list (S * T) * top :=
  let v := firstn (Z.to_nat (tsize t)) (tbl t) ++ repeat zero (Z.to_nat (tsize t) - length (tbl t)) in
  (v, mk_top (maxSize t) (tsize t) v).
End Top.
Arguments mk_top {S T}. Arguments maxSize {S T}. Arguments tsize {S T}. Arguments tbl {S T}.
