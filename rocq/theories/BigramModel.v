(** Model of csucvector_util::Bigram of include/cybozu/csucvector.hpp: the statistics of neighbouring codes and the code made of the
    most frequent pair.  put() (printing) is left out. *)
Require Import Verif.Common Verif.SucModel Verif.CSucModel.
Import ListNotations.
Local Open Scope Z_scope.

(** csucvector.hpp:90-104 the table of counters (uint32_t), prev; tblNum is the length of the table *)
Record bigram := mk_bg { bg_tbl : list (list Z); bg_prev : Z }.
Definition Bigram (encTbl : list enc) : bigram :=
  mk_bg (repeat (repeat 0 (length encTbl)) (length encTbl)) (zlen encTbl).
Definition tblNum (b : bigram) : Z := zlen (bg_tbl b).
(** csucvector.hpp:106-115 append; v is a uint32_t *)
Definition bi_append (b : bigram) (v : Z) : res bigram :=
  if tblNum b <=? v then Exn else
  if bg_prev b =? tblNum b then Ok (mk_bg (bg_tbl b) v) else
  let! row := rd (bg_tbl b) (bg_prev b) in
  let! x := rd row v in
  Ok (mk_bg (upd (bg_tbl b) (Z.to_nat (bg_prev b)) (upd row (Z.to_nat v) ((x + 1) mod 2 ^ 32))) v).
(** csucvector.hpp:89 std::multimap<uint32_t, Pair, std::greater<uint32_t> >: insert puts an element behind those with the same key *)
Definition entry : Type := Z * (Z * Z).
Fixpoint mm_insert (e : entry) (m : list entry) : list entry :=
  match m with
  | [] => [e]
  | x :: r => if fst x <? fst e then e :: m else x :: mm_insert e r
  end.
Fixpoint pairs_of_row (i j : Z) (row : list Z) (m : list entry) : list entry :=
  match row with [] => m | x :: row => pairs_of_row i (j + 1) row (mm_insert (x, (i, j)) m) end.
Fixpoint pairs_of (i : Z) (tbl : list (list Z)) (m : list entry) : list entry :=
  match tbl with [] => m | row :: tbl => pairs_of (i + 1) tbl (pairs_of_row i 0 row m) end.
(** csucvector.hpp:116-123 getPairMap on an empty map *)
Definition getPairMap (b : bigram) : list entry := pairs_of 0 (bg_tbl b) [].
(** csucvector.hpp:124-131 isAll1 *)
Definition isAll1 (x len : Z) : bool :=
  if 64 <=? len then x =? all1 else let mask := getMask len in Z.land x mask =? Z.land all1 mask.
(** csucvector.hpp:132-154 concatPair: Some (v, len) or false; a shift by 64 or more is undefined *)
Definition concatPair (encTbl : list enc) (pr : Z * Z) : res (option (Z * Z)) :=
  let! p := rd encTbl (fst pr) in
  let! c := rd encTbl (snd pr) in
  let L := ev p in let Ln := elen p in let H := ev c in let Hn := elen c in
  let n := (Ln + Hn) mod 2 ^ 32 in
  if (L =? 0) && (H =? 0) then Ok (Some (0, n)) else
  if isAll1 L Ln && isAll1 H Hn then Ok (Some ((if 64 <=? n then all1 else getMask n), n)) else
  if n <=? 64 then if 64 <=? Ln then UB else Ok (Some (Z.lor (Z.shiftl H Ln mod 2 ^ 64) L, n)) else
  Ok None.
(** csucvector.hpp:155-160 getTopEncoding; begin() of an empty map must not be dereferenced *)
Definition getTopEncoding (encTbl : list enc) (b : bigram) : res (option (Z * Z)) :=
  match getPairMap b with
  | [] => UB
  | (_, pr) :: _ => concatPair encTbl pr
  end.
