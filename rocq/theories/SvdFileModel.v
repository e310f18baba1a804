(** Model of the text format of include/cybozu/nlp/svd.hpp: LoadHeader, LoadMatrix, LoadSparseMatrix, LoadVector, SaveMatrix,
    SaveSparseMatrix, SaveVector.  A file is a byte list, or None when it cannot be opened.  The text of a double and its
    extraction from a stream are parameters ([show], [num]); those of int are modelled.  Messages to stderr are not modelled,
    allocation and writing do not fail. *)
Require Import Verif.Common Verif.Text Verif.PlsiModel Verif.SvdModel.
Require Verif.ExceptionModel Verif.DesymbolModel.
Import ListNotations.
Local Open Scope Z_scope.

(** std::istream: what is left, eofbit, failbit *)
Record st := mk_st { left : list Z; eof : bool; failed : bool }.
(** operator>>: the sentry skips white space (and fails at the end or if the stream is not good); [f] reads from the first other
    byte and gives the value, whether that fails, the rest and whether the end was met.  The result is what is stored in the
    variable, None if nothing is *)
Definition extract {A} (f : list Z -> A * bool * list Z * bool) (s : st) : option A * st :=
  if failed s || eof s then (None, mk_st (left s) (eof s) true) else
  match DesymbolModel.skip_ws (left s) with
  | [] => (None, mk_st [] true true)
  | d => let '(x, bad, rest, e) := f d in (Some x, mk_st rest e bad)
  end.
(** char *)
Definition char_at (d : list Z) : Z * bool * list Z * bool :=
  match d with [] => (0, true, [], true) | c :: r => (c, false, r, false) end.
(** int: an optional sign and digits; 0 and failure without digits, the nearest int and failure when out of range (C++11) *)
Fixpoint digits (d : list Z) : list Z * list Z :=
  match d with
  | [] => ([], [])
  | c :: r => if (48 <=? c) && (c <=? 57) then let '(a, b) := digits r in (c :: a, b) else ([], d)
  end.
Definition is_nil {A} (l : list A) : bool := match l with [] => true | _ => false end.
Definition int_at (d : list Z) : Z * bool * list Z * bool :=
  let '(neg, d) := match d with c :: r => if c =? 45 then (true, r) else if c =? 43 then (false, r) else (false, d) | [] => (false, d) end in
  let '(ds, rest) := digits d in
  let e := is_nil rest in
  match ds with
  | [] => (0, true, rest, e)
  | _ =>
      let v := fold_left (fun a c => a * 10 + (c - 48)) ds 0 in
      let v := if neg then - v else v in
      if 2 ^ 31 <=? v then (2 ^ 31 - 1, true, rest, e) else if v <? - 2 ^ 31 then (- 2 ^ 31, true, rest, e) else (v, false, rest, e)
  end.
(** std::getline on a stream that has not failed: None when it fails *)
Fixpoint upto_nl (d : list Z) : list Z * option (list Z) :=
  match d with
  | [] => ([], None)
  | c :: r => if c =? 10 then ([], Some r) else let '(a, b) := upto_nl r in (c :: a, b)
  end.
Definition getline (s : st) : option (list Z * st) :=
  if failed s || eof s then None else
  match left s with
  | [] => None
  | d => match upto_nl d with
         | (line, Some r) => Some (line, mk_st r false false)
         | (line, None) => Some (line, mk_st [] true false)
         end
  end.

(** svd.hpp:221-268 LoadHeader after the file is opened; row and col are 0 before (the callers set them).
    Result: (isMatrix, isSparse, row, col), None for false.  c is read even if nothing was stored in it: UB; vec and type are
    only read when the row was stored, so they were, too *)
Definition dflt {A} (d : A) (o : option A) : A := match o with Some x => x | None => d end.
Definition LoadHeader (ifs : st) : res (option (bool * bool * Z * Z * st)) :=
  match getline ifs with
  | None => Ok None
  | Some (line, ifs) =>
      let is := mk_st line false false in
      let (c, is) := extract char_at is in
      let (vec, is) := extract char_at is in
      let (type, is) := extract char_at is in
      let (row, is) := extract int_at is in
      let (col, is) := extract int_at is in
      let row := dflt 0 row in
      let col := dflt 0 col in
      match c with
      | None => UB
      | Some c =>
          if negb (c =? 35) then Ok None else
          if row <=? 0 then Ok None else
          match type, vec with
          | Some type, Some vec =>
              if negb (type =? 83) && negb (type =? 68) then Ok None else
              let isSparse := type =? 83 in
              if vec =? 77 then (if col <=? 0 then Ok None else Ok (Some (true, isSparse, row, col, ifs)))
              else if vec =? 86 then Ok (Some (false, isSparse, row, 1, ifs))
              else Ok None
          | _, _ => UB
          end
      end
  end.

(** a loop that may return false *)
Fixpoint foldRO {S X} (f : S -> X -> res (option S)) (l : list X) (s : S) : res (option S) :=
  match l with
  | [] => Ok (Some s)
  | x :: l => let! o := f s x in match o with None => Ok None | Some s => foldRO f l s end
  end.

Section Files.
Context {F : Type}.
Variables (fz : Z -> F) (cast : F -> F).       (* cast: from double to the scalar type of the matrix *)
Variable num : list Z -> F * bool * list Z.     (* is >> double: value, failure, rest *)
Variable show : F -> list Z.                    (* ofs << x with setprecision(8) *)
Definition num_at (d : list Z) : F * bool * list Z * bool := let '(v, bad, rest) := num d in (v, bad, rest, is_nil rest).

(** svd.hpp:290-303 / 343-355 one line of a sparse matrix; [store] is M(i, idx) = v or M.insertBack(i, idx) = v *)
Fixpoint sparse_line {M} (store : M -> Z -> F -> res M) (col : Z) (fuel : nat) (is : st) (m : M) : res (option M) :=
  match fuel with
  | O => Fuel
  | S fuel =>
      let (idx, is) := extract int_at is in
      let (sep, is) := extract char_at is in
      let (v, is) := extract num_at is in
      if failed is then Ok (Some m) else
      match idx, sep, v with
      | Some idx, Some sep, Some v =>
          if negb (sep =? 58) || (idx <? 0) || (col <=? idx) then Ok None
          else let! m := store m idx (cast v) in sparse_line store col fuel is m
      | _, _, _ => UB
      end
  end.

(** svd.hpp:270-317 LoadMatrix; [old] gives the entries that resize leaves unspecified *)
Definition LoadMatrix (old : Z -> Z -> F) (file : option (list Z)) : res (option (mat F)) :=
  match file with
  | None => Ok None
  | Some bytes =>
      let! h := LoadHeader (mk_st bytes false false) in
      match h with
      | Some (true, isSparse, row, col, ifs) =>
          let M := mk_mat row col old in
          let! o :=
            if isSparse then
              foldRO (fun '(M, ifs) i =>
                let M := mk_mat row col (fun a b => if a =? i then fz 0 else at_ M a b) in
                match getline ifs with
                | None => Ok None
                | Some (line, ifs) =>
                    let! o := sparse_line (fun M idx v => put M i idx v) col (S (length line)) (mk_st line false false) M in
                    match o with None => Ok None | Some M => Ok (Some (M, ifs)) end
                end) (upto row) (M, ifs)
            else
              foldRO (fun s i => foldRO (fun '(M, ifs) j =>
                let (v, ifs) := extract num_at ifs in
                if failed ifs then Ok None else
                match v with Some v => let! M := put M i j (cast v) in Ok (Some (M, ifs)) | None => UB end) (upto col) s) (upto row) (M, ifs) in
          match o with None => Ok None | Some (M, _) => Ok (Some M) end
      | _ => Ok None
      end
  end.

(** an Eigen sparse matrix: its sizes and for each row the (column, value) pairs *)
Record smat := mk_smat { srows : Z; scols : Z; lines : list (list (Z * F)) }.
(** insertBack(i, idx) into the row that startVec began: the columns must increase (Eigen asserts) *)
Definition insert_back (r : list (Z * F)) (idx : Z) (v : F) : res (list (Z * F)) :=
  match last r (-1, v) with (k, _) => if k <? idx then Ok (r ++ [(idx, v)]) else UB end.
(** svd.hpp:319-357 LoadSparseMatrix *)
Definition LoadSparseMatrix (file : option (list Z)) : res (option smat) :=
  match file with
  | None => Ok None
  | Some bytes =>
      let! h := LoadHeader (mk_st bytes false false) in
      match h with
      | Some (true, isSparse, row, col, ifs) =>
          if negb isSparse then Ok None else
          let! o := foldRO (fun '(ls, ifs) (i : Z) =>
              match getline ifs with
              | None => Ok None
              | Some (line, ifs) =>
                  let! o := sparse_line insert_back col (S (length line)) (mk_st line false false) [] in
                  match o with None => Ok None | Some r => Ok (Some (ls ++ [r], ifs)) end
              end) (upto row) ([], ifs) in
          match o with None => Ok None | Some (ls, _) => Ok (Some (mk_smat row col ls)) end
      | _ => Ok None
      end
  end.

(** svd.hpp:359-380 LoadVector *)
Definition LoadVector (file : option (list Z)) : res (option (list F)) :=
  match file with
  | None => Ok None
  | Some bytes =>
      let! h := LoadHeader (mk_st bytes false false) in
      match h with
      | Some (false, _, row, col, ifs) =>
          let! o := foldRO (fun '(V, ifs) (i : Z) =>
              let (v, ifs) := extract num_at ifs in
              if failed ifs then Ok None else
              match v with Some v => Ok (Some (V ++ [cast v], ifs)) | None => UB end) (upto row) ([], ifs) in
          match o with None => Ok None | Some (V, _) => Ok (Some V) end
      | _ => Ok None
      end
  end.

Definition dec (x : Z) : list Z := ExceptionModel.printf_d x.
(** svd.hpp:382-397 SaveMatrix *)
Definition SaveMatrix (M : mat F) : list Z :=
  str "# M D " ++ dec (rows M) ++ str " " ++ dec (cols M) ++ [10] ++
  concat (map (fun i => concat (map (fun j => (if 0 <? j then str " " else []) ++ show (at_ M i j)) (upto (cols M))) ++ [10]) (upto (rows M))).
(** svd.hpp:399-419 SaveSparseMatrix *)
Definition SaveSparseMatrix (M : smat) : list Z :=
  str "# M S " ++ dec (srows M) ++ str " " ++ dec (scols M) ++ [10] ++
  concat (map (fun r => fst (fold_left (fun '(t, first) (e : Z * F) => (t ++ (if first : bool then [] else str " ") ++ dec (fst e) ++ str ":" ++ show (snd e), false)) r ([], true)) ++ [10]) (lines M)).
(** svd.hpp:421-431 SaveVector *)
Definition SaveVector (V : list F) : list Z :=
  str "# V D " ++ dec (zlen V) ++ [10] ++ concat (map (fun v => show v ++ [10]) V).
End Files.
Arguments mk_smat {F}. Arguments srows {F}. Arguments scols {F}. Arguments lines {F}.
