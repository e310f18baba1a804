(** Model of include/sais.hxx: suffix array construction by induced sorting
    (the single-threaded build, _OPENMP not defined, so maxthreads is 1).

    Representation.  index_type is int: indices and array elements are [Z]; the theorems are stated for
    n and k below 2^31, where every intermediate value lies in (-2^31, 2^31):
    the array elements lie between -n and n (names and bucket pointers between 0 and n), the indices formed from them stay
    within the arrays (an index outside is [UB] here), and fs + n - 2m <= n.
    FMindexT passes an array of uint32_t as SA; a negative value is then stored modulo 2^32 and read back into an int, which
    gives it back (two's complement), so the elements are modelled as signed.
    [~j] is [Z.lnot j].  T is the list of the n symbols.  In the recursive call T points into the upper end of
    the array SA itself; the model passes it as a separate list and gives the callee only the cells of SA below it, so
    that a callee that touched its own text would be [UB] in the model.
    The memory behind SA (n + fs cells) is the list [mem]. *)
Require Import Verif.Common.

(** sais.hxx:73: for(i = 0; i < n; ++i) { ++C[T[i]]; } *)
Fixpoint count_syms (T C : list Z) : res (list Z) :=
  match T with
  | [] => Ok C
  | c :: T' => let! x := rd C c in let! C := wr C c (x + 1) in count_syms T' C
  end.
(** sais.hxx:45-75, getCounts *)
Definition getCounts (T : list Z) (k : Z) : res (list Z) := count_syms T (repeat 0 (Z.to_nat k)).
(** sais.hxx:76-82, getBuckets: [C] is the list of the k counts, the result is the new contents of B *)
Fixpoint buckets (C : list Z) (sum : Z) (end_ : bool) : list Z :=
  match C with
  | [] => []
  | x :: C' => (if end_ then sum + x else sum + x - x) :: buckets C' (sum + x) end_
  end.
Definition getBuckets (C : list Z) (end_ : bool) : list Z := buckets C 0 end_.
(** sais.hxx:95-96, 107-108: if(C == B) { getCounts(T, C, n, k); } getBuckets(C, B, k, end).
    [alias] says that C and B are the same array.  Returns C (before the overwriting, when aliased) and B. *)
Definition counts_buckets (alias : bool) (T C : list Z) (k : Z) (end_ : bool) : res (list Z * list Z) :=
  let! C := (if alias then getCounts T k else Ok C) in Ok (C, getBuckets C end_).

(** sais.hxx:102, 111: if(c0 != c1) { B[c1] = b - SA; b = SA + B[c1 = c0]; } *)
Definition switch (B : list Z) (c1 b c0 : Z) : res (list Z * Z * Z) :=
  if c0 =? c1 then Ok (B, c1, b) else
  let! B := wr B c1 b in let! b' := rd B c0 in Ok (B, c0, b').
(** sais.hxx:98, 103: *b++ = ((0 < j) && (T[j - 1] < c1)) ? ~j : j; *)
Definition putL (T SA : list Z) (b c1 j : Z) : res (list Z * Z) :=
  let! mark := (if 0 <? j then let! x := rd T (j - 1) in Ok (x <? c1) else Ok false) in
  let! SA := wr SA b (if mark then Z.lnot j else j) in Ok (SA, b + 1).
(** sais.hxx:99-105; [fuel] is the number n - i of iterations left *)
Fixpoint loopL (fuel : nat) (T : list Z) (i : Z) (SA B : list Z) (c1 b : Z) : res (list Z * list Z) :=
  match fuel with
  | O => Ok (SA, B)
  | S f =>
    let! j := rd SA i in let! SA := wr SA i (Z.lnot j) in
    if 0 <? j then
      let! c0 := rd T (j - 1) in
      let! (B, c1, b) := switch B c1 b c0 in
      let! (SA, b) := putL T SA b c1 (j - 1) in
      loopL f T (i + 1) SA B c1 b
    else loopL f T (i + 1) SA B c1 b
  end.
(** sais.hxx:112: *--b = ((j == 0) || (T[j - 1] > c1)) ? ~j : j; *)
Definition putS (T SA : list Z) (b c1 j : Z) : res (list Z * Z) :=
  let! mark := (if j =? 0 then Ok true else let! x := rd T (j - 1) in Ok (c1 <? x)) in
  let! SA := wr SA (b - 1) (if mark then Z.lnot j else j) in Ok (SA, b - 1).
(** sais.hxx:109-116; [i] is i + 1 as a number of iterations left *)
Fixpoint loopS (i : nat) (T : list Z) (SA B : list Z) (c1 b : Z) : res (list Z * list Z) :=
  match i with
  | O => Ok (SA, B)
  | S f =>
    let! j := rd SA (Z.of_nat f) in
    if 0 <? j then
      let! c0 := rd T (j - 1) in
      let! (B, c1, b) := switch B c1 b c0 in
      let! (SA, b) := putS T SA b c1 (j - 1) in
      loopS f T SA B c1 b
    else
      let! SA := wr SA (Z.of_nat f) (Z.lnot j) in loopS f T SA B c1 b
  end.
(** sais.hxx:87-117, induceSA.  Returns SA and the contents of C and B (of the one array, when they are the same). *)
Definition induceSA (alias : bool) (T SA C : list Z) (k : Z) : res (list Z * list Z * list Z) :=
  let n := zlen T in
  let! (C, B) := counts_buckets alias T C k false in
  let! c1 := rd T (n - 1) in
  let! b := rd B c1 in
  let! (SA, b) := putL T SA b c1 (n - 1) in
  let! (SA, B) := loopL (length T) T 0 SA B c1 b in
  let! (C, B) := counts_buckets alias T C k true in
  let! b := rd B 0 in
  let! (SA, B) := loopS (length T) T SA B 0 b in
  Ok (SA, C, B).

(** sais.hxx:188-191, 203-206, 237-240, 260-263: the scan for the leftmost S-type positions,
    for(i = n - 2, c = 0, c1 = T[n - 1]; 0 <= i; --i, c1 = c0) {
      if((c0 = T[i]) < (c1 + c)) { c = 1; } else if(c != 0) { f(i + 1); c = 0; } }
    [i] here is the number of iterations left. *)
Fixpoint lms_loop {St} (f : Z -> St -> res St) (T : list Z) (i : nat) (c c1 : Z) (st : St) : res St :=
  match i with
  | O => Ok st
  | S i' =>
    let! c0 := rd T (Z.of_nat i') in
    if c0 <? c1 + c then lms_loop f T i' 1 c0 st
    else if negb (c =? 0) then let! st := f (Z.of_nat i' + 1) st in lms_loop f T i' 0 c0 st
    else lms_loop f T i' c c0 st
  end.
Definition lms_scan {St} (f : Z -> St -> res St) (T : list Z) (st : St) : res St :=
  let! c1 := rd T (zlen T - 1) in lms_loop f T (length T - 1) 0 c1 st.
(** for(; i < j; ++i) { SA[i] = 0; }  (sais.hxx:187, 202, 235, 280, 297) *)
Fixpoint zero (cnt : nat) (i : Z) (SA : list Z) : res (list Z) :=
  match cnt with O => Ok SA | S f => let! SA := wr SA i 0 in zero f (i + 1) SA end.

(** sais.hxx:190: SA[--B[c1]] = i + 1.  The scan has c1 = T[i + 1]. *)
Definition put_lms (T : list Z) (p : Z) (st : list Z * list Z) : res (list Z * list Z) :=
  let (SA, B) := st in
  let! c := rd T p in
  let! x := rd B c in let! B := wr B c (x - 1) in let! SA := wr SA (x - 1) p in Ok (SA, B).
(** sais.hxx:183-192 and 198-207, stage 1 with the bucket arrays chosen *)
Definition stage1 (alias : bool) (T SA : list Z) (k : Z) : res (list Z * list Z * list Z * unit) :=
  let! C := getCounts T k in
  let B := getBuckets C true in
  let! SA := zero (length T) 0 SA in
  let! (SA, B) := lms_scan (put_lms T) T (SA, B) in
  let! (SA, C, B) := induceSA alias T SA C k in Ok (SA, C, B, tt).

(** Where the bucket arrays live (sais.hxx:179-182, 193-197, 271-274, 288-291): a new array (B == C) if fs < k, otherwise the cells
    behind SA[n]; then B = C + k if it fits, else B = C.  [alloc] says whether new succeeds (a failing one throws).
    The body works on the n cells of SA and returns them with the contents of C and B, which are written back to the
    cells behind SA. *)
Definition with_buckets {X} (alloc : bool) (mem : list Z) (n fs k : Z)
  (body : bool -> list Z -> res (list Z * list Z * list Z * X)) : res (list Z * X) :=
  let SA := firstn (Z.to_nat n) mem in let X := skipn (Z.to_nat n) mem in
  if fs <? k then
    if alloc then let! (SA, C, B, x) := body true SA in Ok (SA ++ X, x) else Exn
  else if k <=? fs - k then
    let! (SA, C, B, x) := body false SA in Ok (SA ++ C ++ B ++ skipn (Z.to_nat (2 * k)) X, x)
  else
    let! (SA, C, B, x) := body true SA in Ok (SA ++ B ++ skipn (Z.to_nat k) X, x).

(** sais.hxx:226: for(j = p + 1; (j < n) && (c0 == (c1 = T[j])); ++j) { } *)
Fixpoint skip_eq (fuel : nat) (T : list Z) (n j c0 : Z) : res Z :=
  match fuel with
  | O => Fuel
  | S f => if j <? n then let! c1 := rd T j in if c0 =? c1 then skip_eq f T n (j + 1) c0 else Ok j else Ok j
  end.
(** sais.hxx:225-227: is SA[i] = p a leftmost S-type position? *)
Definition lms_test (T : list Z) (p : Z) : res bool :=
  let n := zlen T in
  if 0 <? p then
    let! a := rd T (p - 1) in let! c0 := rd T p in
    if c0 <? a then
      let! j := skip_eq (S (length T)) T n (p + 1) c0 in
      if j <? n then let! c1 := rd T j in Ok (c0 <? c1) else Ok false
    else Ok false
  else Ok false.
(** sais.hxx:223-229 *)
Fixpoint compact (fuel : nat) (T SA : list Z) (i m : Z) : res (list Z * Z) :=
  match fuel with
  | O => Ok (SA, m)
  | S f =>
    let! p := rd SA i in
    let! t := lms_test T p in
    if t then let! SA := wr SA m p in compact f T SA (i + 1) (m + 1) else compact f T SA (i + 1) m
  end.
(** sais.hxx:239: SA[m + ((i + 1) >> 1)] = j - i - 1; j = i + 1; *)
Definition put_len (m p : Z) (st : list Z * Z) : res (list Z * Z) :=
  let (SA, j) := st in let! SA := wr SA (m + Z.shiftr p 1) (j - p) in Ok (SA, p).
(** sais.hxx:245: for(j = 0; (j < plen) && (T[p + j] == T[q + j]); ++j) { }, then j == plen *)
Fixpoint same_run (fuel : nat) (T : list Z) (p q j plen : Z) : res bool :=
  match fuel with
  | O => Fuel
  | S f => if j <? plen then
      let! a := rd T (p + j) in let! b := rd T (q + j) in
      if a =? b then same_run f T p q (j + 1) plen else Ok (j =? plen)
    else Ok (j =? plen)
  end.
(** sais.hxx:242-250; [fuel] is m - i *)
Fixpoint naming (fuel : nat) (T SA : list Z) (m i name q qlen : Z) : res (list Z * Z) :=
  match fuel with
  | O => Ok (SA, name)
  | S f =>
    let! p := rd SA i in
    let! plen := rd SA (m + Z.shiftr p 1) in
    let! same := (if plen =? qlen then same_run (S (length T)) T p q 0 plen else Ok false) in
    let name' := if same then name else name + 1 in
    let q' := if same then q else p in
    let qlen' := if same then qlen else plen in
    let! SA := wr SA (m + Z.shiftr p 1) name' in
    naming f T SA m (i + 1) name' q' qlen'
  end.
(** sais.hxx:256-258; [cnt] is i + 1 - m *)
Fixpoint gather (cnt : nat) (mem : list Z) (m ra j : Z) : res (list Z) :=
  match cnt with
  | O => Ok mem
  | S f =>
    let! x := rd mem (m + Z.of_nat f) in
    if negb (x =? 0) then let! mem := wr mem (ra + j) (x - 1) in gather f mem m ra (j - 1)
    else gather f mem m ra j
  end.
(** sais.hxx:262: RA[j--] = i + 1 *)
Definition put_ra (ra p : Z) (st : list Z * Z) : res (list Z * Z) :=
  let (mem, j) := st in let! mem := wr mem (ra + j) p in Ok (mem, j - 1).
(** sais.hxx:267: for(i = 0; i < m; ++i) { SA[i] = RA[SA[i]]; } *)
Fixpoint translate (cnt : nat) (mem : list Z) (ra i : Z) : res (list Z) :=
  match cnt with
  | O => Ok mem
  | S f => let! x := rd mem i in let! y := rd mem (ra + x) in let! mem := wr mem i y in translate f mem ra (i + 1)
  end.

(** sais.hxx:177-268, stages 1 and 2 of suffixsort: the leftmost S-type positions, sorted, in SA[0..m).
    [rec] is the recursive call suffixsort(RA, SA, fs', m, name, false), which works in place.  If its result is not 0 the function
    returns -2 (line 259), which has the same effect on saisxx and saisxx_bwt as an exception and is modelled as one. *)
Definition sort_lms (rec : list Z -> list Z -> Z -> Z -> res (list Z * Z)) (alloc : bool) (T mem : list Z) (fs k : Z) : res (list Z * Z) :=
  let n := zlen T in
  let! (mem, _) := with_buckets alloc mem n fs k (fun alias SA => stage1 alias T SA k) in
  let! (mem, m) := compact (length T) T mem 0 0 in
  let! mem := zero (Z.to_nat (Z.shiftr n 1)) m mem in
  let! (mem, _) := lms_scan (put_len m) T (mem, n) in
  let! (mem, name) := naming (Z.to_nat m) T mem m 0 0 n 0 in
  if name <? m then
    let ra := n + fs - m in
    let! mem := gather (Z.to_nat (Z.shiftr n 1)) mem m ra (m - 1) in
    let RA := skipn (Z.to_nat ra) mem in
    let! (low, r) := rec RA (firstn (Z.to_nat ra) mem) (fs + n - m * 2) name in
    if negb (r =? 0) then Exn else
    let! (mem, _) := lms_scan (put_ra ra) T (low ++ RA, m - 1) in
    let! mem := translate (Z.to_nat m) mem ra 0 in
    Ok (mem, m)
  else Ok (mem, m).

(** sais.hxx:281-284, 298-301: for(i = m - 1; 0 <= i; --i) { j = SA[i], SA[i] = 0; SA[--B[T[j]]] = j; } *)
Fixpoint spread (i : nat) (T SA B : list Z) : res (list Z * list Z) :=
  match i with
  | O => Ok (SA, B)
  | S f =>
    let! j := rd SA (Z.of_nat f) in let! SA := wr SA (Z.of_nat f) 0 in
    let! (SA, B) := put_lms T j (SA, B) in
    spread f T SA B
  end.
(** sais.hxx:276-286 and 293-303, stage 3 with the bucket arrays chosen; [induce] is induceSA or computeBWT *)
Definition stage3 {X} (induce : bool -> list Z -> list Z -> list Z -> Z -> res (list Z * list Z * list Z * X)) (alias : bool) (T SA : list Z) (m k : Z) : res (list Z * list Z * list Z * X) :=
  let! C := getCounts T k in
  let B := getBuckets C true in
  let! SA := zero (length T - Z.to_nat m) m SA in
  let! (SA, B) := spread (Z.to_nat m) T SA B in
  induce alias T SA C k.

(** sais.hxx:132-140, the L phase of computeBWT; [fuel] is the number n - i of iterations left *)
Fixpoint loopL_bwt (fuel : nat) (T : list Z) (i : Z) (SA B : list Z) (c1 b : Z) : res (list Z * list Z) :=
  match fuel with
  | O => Ok (SA, B)
  | S f =>
    let! j := rd SA i in
    if 0 <? j then
      let! c0 := rd T (j - 1) in
      let! SA := wr SA i (Z.lnot c0) in
      let! (B, c1, b) := switch B c1 b c0 in
      let! (SA, b) := putL T SA b c1 (j - 1) in
      loopL_bwt f T (i + 1) SA B c1 b
    else if negb (j =? 0) then let! SA := wr SA i (Z.lnot j) in loopL_bwt f T (i + 1) SA B c1 b
    else loopL_bwt f T (i + 1) SA B c1 b
  end.
(** sais.hxx:148: *--b = ((0 < j) && (T[j - 1] > c1)) ? ~((index_type)T[j - 1]) : j; *)
Definition putS_bwt (T SA : list Z) (b c1 j : Z) : res (list Z * Z) :=
  let! x := (if 0 <? j then let! y := rd T (j - 1) in Ok (if c1 <? y then Z.lnot y else j) else Ok j) in
  let! SA := wr SA (b - 1) x in Ok (SA, b - 1).
(** sais.hxx:144-154, the S phase; [i] is i + 1 as a number of iterations left *)
Fixpoint loopS_bwt (i : nat) (T : list Z) (SA B : list Z) (c1 b pidx : Z) : res (list Z * list Z * Z) :=
  match i with
  | O => Ok (SA, B, pidx)
  | S f =>
    let! j := rd SA (Z.of_nat f) in
    if 0 <? j then
      let! c0 := rd T (j - 1) in
      let! SA := wr SA (Z.of_nat f) c0 in
      let! (B, c1, b) := switch B c1 b c0 in
      let! (SA, b) := putS_bwt T SA b c1 (j - 1) in
      loopS_bwt f T SA B c1 b pidx
    else if negb (j =? 0) then let! SA := wr SA (Z.of_nat f) (Z.lnot j) in loopS_bwt f T SA B c1 b pidx
    else loopS_bwt f T SA B c1 b (Z.of_nat f)
  end.
(** sais.hxx:118-156, computeBWT *)
Definition computeBWT (alias : bool) (T SA C : list Z) (k : Z) : res (list Z * list Z * list Z * Z) :=
  let n := zlen T in
  let! (C, B) := counts_buckets alias T C k false in
  let! c1 := rd T (n - 1) in
  let! b := rd B c1 in
  let! (SA, b) := putL T SA b c1 (n - 1) in
  let! (SA, B) := loopL_bwt (length T) T 0 SA B c1 b in
  let! (C, B) := counts_buckets alias T C k true in
  let! b := rd B 0 in
  let! (SA, B, pidx) := loopS_bwt (length T) T SA B 0 b (-1) in
  Ok (SA, C, B, pidx).

(** sais.hxx:160-310, suffixsort: the memory and the result.  [alloc d s]: does the operator new at depth d, stage s
    (false: line 181, true: line 273) succeed?  The fuel bounds the recursion depth. *)
Fixpoint suffixsort (fuel : nat) (alloc : nat -> bool -> bool) (d : nat) (isbwt : bool) (T mem : list Z) (fs k : Z) : res (list Z * Z) :=
  match fuel with
  | O => Fuel
  | S f =>
    let! (mem, m) := sort_lms (fun T mem fs k => suffixsort f alloc (S d) false T mem fs k) (alloc d false) T mem fs k in
    with_buckets (alloc d true) mem (zlen T) fs k
      (fun alias SA => stage3 (if isbwt then computeBWT else fun a T SA C k => let! (SA, C, B) := induceSA a T SA C k in Ok (SA, C, B, 0)) alias T SA m k)
  end.

(** sais.hxx:323-332, saisxx: the error code, and the contents of SA, None when an exception leaves them unspecified. *)
Definition saisxx (alloc : nat -> bool -> bool) (T SA : list Z) (n k : Z) : res (Z * option (list Z)) :=
  if (n <? 0) || (k <=? 0) then Ok (-1, Some SA) else
  if n <=? 1 then
    if n =? 1 then let! SA := wr SA 0 0 in Ok (0, Some SA) else Ok (0, Some SA)
  else
  match suffixsort (length T) alloc 0 false T SA 0 k with
  | Ok (SA, err) => Ok (err, Some SA)
  | Exn => Ok (-2, None)
  | UB => UB
  | Fuel => Fuel
  end.

(** sais.hxx:354-355: for(i = 0; i < pidx; ++i) { U[i + 1] = A[i]; } for(i += 1; i < n; ++i) { U[i] = A[i]; }
    [cnt] iterations from i, with d = 1 and d = 0.  The cast to char_type keeps the value, which is a symbol of T. *)
Fixpoint copy_out (cnt : nat) (i d : Z) (A U : list Z) : res (list Z) :=
  match cnt with O => Ok U | S f => let! x := rd A i in let! U := wr U (i + d) x in copy_out f (i + 1) d A U end.
(** sais.hxx:343-361, saisxx_bwt: the result and the contents of U *)
Definition saisxx_bwt (alloc : nat -> bool -> bool) (T U A : list Z) (n k : Z) : res (Z * list Z) :=
  if (n <? 0) || (k <=? 0) then Ok (-1, U) else
  if n <=? 1 then
    if n =? 1 then let! x := rd T 0 in let! U := wr U 0 x in Ok (n, U) else Ok (n, U)
  else
  match suffixsort (length T) alloc 0 true T A 0 k with
  | Ok (A, pidx) =>
    if 0 <=? pidx then
      let! x := rd T (n - 1) in let! U := wr U 0 x in
      let! U := copy_out (Z.to_nat pidx) 0 1 A U in
      let! U := copy_out (Z.to_nat (n - (pidx + 1))) (pidx + 1) 0 A U in
      Ok (pidx + 1, U)
    else Ok (pidx, U)
  | Exn => Ok (-2, U)
  | UB => UB
  | Fuel => Fuel
  end.
