(** Model of include/cybozu/nlp/svd.hpp, the numeric part: InitUnitMatrix, CompressCol (the branches that are compiled),
    OrthonormalizeMatrix and ComputeSVD.  An Eigen matrix has its sizes and a function giving its entries; access outside is UB
    (Eigen asserts).  int has 32 bits and its overflow is UB.  Sizes of matrices fit an int.  OrthonormalizeMatrix and
    ComputeSVD are modelled with exact real numbers: rounding is not modelled.  The Jacobi decomposition of Eigen is a parameter. *)
From Coq Require Import Reals.
Require Import Verif.Common Verif.PlsiModel.

Record mat {F : Type} := mk_mat { rows : Z; cols : Z; at_ : Z -> Z -> F }.
Arguments mat : clear implicits.
Arguments mk_mat {F}.

Section Generic.
Context {F : Type}.
Variables (fadd : F -> F -> F) (fz : Z -> F) (cast : F -> F).   (* cast: from double to the scalar type of the matrix *)
Notation mat := (mat F).
Definition inside (M : mat) (i j : Z) : bool := (0 <=? i) && (i <? rows M) && (0 <=? j) && (j <? cols M).
(** M(i, j) and M(i, j) = x *)
Definition get (M : mat) (i j : Z) : res F := if inside M i j then Ok (at_ M i j) else UB.
Definition put (M : mat) (i j : Z) (x : F) : res mat :=
  if inside M i j then Ok (mk_mat (rows M) (cols M) (fun a b => if (a =? i) && (b =? j) then x else at_ M a b)) else UB.
(** int arithmetic *)
Definition cint (x : Z) : res Z := if (- 2 ^ 31 <=? x) && (x <? 2 ^ 31) then Ok x else UB.

(** svd.hpp:84-95; assert(col <= row) *)
Definition InitUnitMatrix (M : mat) : res mat :=
  let M := mk_mat (rows M) (cols M) (fun _ _ => fz 0) in
  let row := rows M in
  let col := cols M in
  if row <? col then UB else
  foldM (fun M i => let! x := cint (i * col) in put M i (Z.quot x row) (fz 1)) (upto row) M.

(** for (int k = b; k < e; k++) *)
Definition span (b e : Z) : list Z := map (Z.add b) (upto (e - b)).
(** svd.hpp:136-158; assert(r <= col); out.resize(row, r) leaves the entries unspecified: those of [out] *)
Definition CompressCol (out m : mat) (r : Z) : res mat :=
  let row := rows m in
  let col := cols m in
  if (col <? r) || (r <? 0) then UB else
  let! (out, _) := foldM (fun '(out, begin_) j =>
      let! a := cint ((j + 1) * col) in
      let! a := cint (a + r) in
      let end_ := Z.min (Z.quot (a - 1) r) col in
      let! out := foldM (fun out i =>
          let! x := foldM (fun x k => let! y := get m i k in Ok (fadd x y)) (span begin_ end_) (fz 0) in
          put out i j (cast x)) (upto row) out in
      Ok (out, end_)) (upto r) (mk_mat row r (at_ out), 0) in
  Ok out.
End Generic.

Open Scope R_scope.
(** Eigen: column, dot product, norm of vectors of n entries *)
Definition col (M : mat R) (j : Z) : Z -> R := fun k => at_ M k j.
Definition dot (n : Z) (v w : Z -> R) : R := fold_right (fun k s => v k * w k + s) 0 (upto n).
Definition norm (n : Z) (v : Z -> R) : R := sqrt (dot n v v).
Definition set_col (M : mat R) (j : Z) (v : Z -> R) : mat R := mk_mat (rows M) (cols M) (fun a b => if Z.eqb b j then v a else at_ M a b).
(** svd.hpp:204 *)
Definition eps : R := 1 / 100000.
(** svd.hpp:213-216 *)
Definition ortho_rest (M : mat R) (i : Z) (js : list Z) : mat R :=
  fold_left (fun M j => let x := dot (rows M) (col M i) (col M j) in set_col M j (fun k => col M j k - col M i k * x)) js M.
(** svd.hpp:207-217 *)
Definition ortho_step (M : mat R) (i : Z) : mat R :=
  let nrm := norm (rows M) (col M i) in
  if Rlt_dec nrm eps then set_col M i (fun _ => 0)
  else
    let rev := 1 / nrm in
    let M := set_col M i (fun k => col M i k * rev) in
    ortho_rest M i (span (i + 1) (cols M)).
(** svd.hpp:201-219 *)
Definition OrthonormalizeMatrix (M : mat R) : mat R := fold_left ortho_step (upto (cols M)) M.

(** Eigen: transpose and product (asserts that the sizes agree) *)
Definition tr (M : mat R) : mat R := mk_mat (cols M) (rows M) (fun i j => at_ M j i).
Definition mul (A B : mat R) : res (mat R) :=
  if Z.eqb (cols A) (rows B) then Ok (mk_mat (rows A) (cols B) (fun i j => fold_right (fun k s => at_ A i k * at_ B k j + s) 0 (upto (cols A)))) else UB.

(** svd.hpp:461-478, up to the matrix C that is given to Eigen::JacobiSVD; None: return false *)
Definition svd_front (A : mat R) (rank : Z) : res (option (mat R * mat R * mat R)) :=
  let r := Z.min (Z.min (cols A) (rows A)) rank in
  if Z.leb r 0 then Ok None else
  let! R0 := InitUnitMatrix IZR (mk_mat (rows A) r (fun _ _ => 0)) in
  let! Y := mul (tr A) R0 in
  let Y := OrthonormalizeMatrix Y in
  let! B := mul A Y in
  let Z := OrthonormalizeMatrix B in
  let! C := mul (tr Z) B in
  Ok (Some (Y, Z, C)).
(** svd.hpp:458-484 ComputeSVD; [jacobi] is Eigen::JacobiSVD (matrixU, singularValues, matrixV) *)
Definition ComputeSVD (jacobi : mat R -> mat R * (Z -> R) * mat R) (A : mat R) (rank : Z) : res (option (mat R * (Z -> R) * mat R)) :=
  let! f := svd_front A rank in
  match f with
  | None => Ok None
  | Some (Y, Z, C) =>
      let '(U1, Sv, V1) := jacobi C in
      let! U := mul Z U1 in
      let! V := mul Y V1 in
      Ok (Some (U, Sv, V))
  end.
