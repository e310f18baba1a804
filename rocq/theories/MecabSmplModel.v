(** Model of sample/mecab_smpl.cpp over MecabModel.v.  [maps]: the bytes of the file cybozu::Mmap maps, None when its constructor throws
    (file missing, not readable, empty: C73).  [created]: createTagger gave an object.  The texts of messages are not modelled. *)
Require Import Verif.Common Verif.MecabModel.
Import ListNotations.
Local Open Scope Z_scope.

(** what is on stderr *)
Inductive err := Quiet | Usage | TooLarge (size : Z) | Exception.
Section Main.
Variables (wakati : list Z -> option (list Z)) (maps : list Z -> option (list Z)) (created : bool).
(** printf("%s ", w): w up to its first NUL *)
Fixpoint c_str (w : list Z) : list Z := match w with [] => [] | c :: r => if c =? 0 then [] else c :: c_str r end.
(** mecab_smpl.cpp:24-28 *)
Definition print (sv : list (list Z)) : list Z := concat (map (fun w => c_str w ++ [32]) sv) ++ [10].
(** mecab_smpl.cpp:6-37 main: status, stdout, stderr; args without the program's name *)
Definition main (args : list (list Z)) : res (Z * list Z * err) :=
  match args with
  | [] => Ok (1, [], Usage)
  | name :: _ =>
    match maps name with
    | None => Ok (1, [], Exception)
    | Some file =>
      if 2 ^ 30 <? zlen file then Ok (1, [], TooLarge (zlen file)) else
      match Mecab created with
      | Ok m => let! (r, _) := parse wakati m file (zlen file) in
                match r with Some sv => Ok (0, print sv, Quiet) | None => Ok (0, [], Quiet) end
      | Exn => Ok (1, [], Exception)
      | UB => UB
      | Fuel => Fuel
      end
    end
  end.
End Main.
