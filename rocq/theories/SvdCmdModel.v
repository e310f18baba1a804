(** Model of sample/svd_smpl.cpp: the command that reads a matrix and writes its decomposition.  The numbers, their texts and the numeric
    part of ComputeSVD are parameters.  The messages are not modelled.  argv strings hold no NUL. *)
Require Import Verif.Common Verif.Text Verif.AtoiModel Verif.PlsiModel Verif.SvdModel Verif.SvdFileModel.
Require Import Verif.ConfigModel.

(** atoi.hpp:141-144, 175-178 cybozu::atoi(argument) as an int; [after]: the bytes in memory behind the end of the argument (in practice the next
    arguments and the environment), which atoi may read *)
Definition arg_int (after x : list Z) : res Z := let! (_, v) := atoi ty_i32 false (x ++ 0 :: after) size_max in Ok v.
Definition is_empty (s : list Z) : bool := match s with [] => true | _ => false end.
(** svd_smpl.cpp:75-83 a name; None: usage() is called, which ends the process with status 1 *)
Definition place_name (a input output : list Z) : option (list Z * list Z) :=
  if is_empty input then Some (a, output) else if is_empty output then Some (input, a) else None.
(** svd_smpl.cpp:70-85 the loop over the arguments *)
Fixpoint args_loop (after : list Z) (args : list (list Z)) (input output : list Z) (rank : Z) : res (option (list Z * list Z * Z)) :=
  match args with
  | [] => Ok (Some (input, output, rank))
  | a :: rest =>
      let name := match place_name a input output with None => Ok None | Some (i, o) => args_loop after rest i o rank end in
      match rest with
      | x :: rest' => if str_eq a (str "-r") then let! r := arg_int after x in args_loop after rest' input output r else name
      | [] => name
      end
  end.
(** svd_smpl.cpp:63-92 main up to the call of Run; the program name is not in [args] *)
Definition svd_args (after : list Z) (args : list (list Z)) : res (option (list Z * list Z * Z)) :=
  let! o := args_loop after args [] [] 10 in
  Ok (match o with
      | None => None
      | Some (input, output, rank) => if is_empty input then None else Some (input, if is_empty output then input else output, rank)
      end).

Section Command.
Context {F : Type}.
Variables (fz : Z -> F) (cast : F -> F) (num : list Z -> F * bool * list Z) (show : F -> list Z).
Variable old : Z -> Z -> F.        (* what resize leaves in a matrix *)
Variable decompose : smat (F := F) + mat F -> Z -> mat F * list F * mat F.   (* svd.hpp:464-481, with r columns *)
Definition dims (A : smat (F := F) + mat F) : Z * Z := match A with inl B => (srows B, scols B) | inr M => (rows M, cols M) end.
(** svd.hpp:459-462 ComputeSVD: false when there is nothing to compute; U, S, V are then as before: empty *)
Definition no_mat : mat F := mk_mat 0 0 old.
Definition ComputeSVD (A : smat (F := F) + mat F) (rank : Z) : mat F * list F * mat F :=
  let r := Z.min (Z.min (snd (dims A)) (fst (dims A))) rank in
  if r <=? 0 then (no_mat, [], no_mat) else decompose A r.

(** the files: None: cannot be opened for reading *)
Definition files := list Z -> option (list Z).
(** SaveMatrix, SaveVector: nothing happens if the file cannot be created *)
Definition write_file (can_write : list Z -> bool) (fs : files) (name data : list Z) : files :=
  if can_write name then fun n => if str_eq n name then Some data else fs n else fs.
(** svd_smpl.cpp:32-61 Run *)
Definition svd_run (can_write : list Z -> bool) (fs : files) (input output : list Z) (rank : Z) : res (bool * files) :=
  let! s := LoadSparseMatrix cast num (fs input) in
  let! a := match s with
            | Some B => Ok (Some (inl B))
            | None => let! m := LoadMatrix fz cast num old (fs input) in Ok (match m with Some M => Some (inr M) | None => None end)
            end in
  match a with
  | None => Ok (false, fs)
  | Some A =>
      let '(U, s, V) := ComputeSVD A rank in
      let fs := write_file can_write fs (output ++ str ".U") (SaveMatrix show U) in
      let fs := write_file can_write fs (output ++ str ".S") (SaveVector show s) in
      let fs := write_file can_write fs (output ++ str ".V") (SaveMatrix show V) in
      Ok (true, fs)
  end.
(** svd_smpl.cpp:63-94 main: the status of the process and the files; an exception is not caught (Exn) *)
Definition svd_main (after : list Z) (can_write : list Z -> bool) (fs : files) (args : list (list Z)) : res (Z * files) :=
  let! o := svd_args after args in
  match o with
  | None => Ok (1, fs)
  | Some (input, output, rank) => let! (_, fs) := svd_run can_write fs input output rank in Ok (0, fs)
  end.
End Command.
