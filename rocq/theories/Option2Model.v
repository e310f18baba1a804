(** Model of sample/option2_smpl.cpp: common options, a command, options of the command. *)
Require Import Verif.Common Verif.Text Verif.AtoiModel Verif.ConfigModel Verif.OptionModel.

Definition ok_or (o : res opt) : opt := match o with Ok o => o | _ => opt_new end.
(** -x takes what convertInt reads as an int (option.hpp:121-173) *)
Definition int_accepts (s : list Z) : bool := match convertInt ty_i32 s with Ok (b, _) => b | _ => false end.

Section Sample.
(** what operator>> reads as a double and as a char (option.hpp:107-113); any text is a std::string (option.hpp:115-119) *)
Variables (double_accepts char_accepts : list Z -> bool).

(** option2_smpl.cpp:23-28 opt1 *)
Definition opt1 : opt := appendHelp (appendDelimiter (appendDelimiter (appendDelimiter (ok_or (appendOpt opt_new (str "x") int_accepts)) (str "init")) (str "run")) (str "status")) (str "h").
(** option2_smpl.cpp:34-43 opt2 *)
Definition opt2 (cmd : list Z) : option opt :=
  if str_eq cmd (str "init") then Some (appendHelp (ok_or (appendOpt opt_new (str "s") (fun _ => true))) (str "h"))
  else if str_eq cmd (str "run") then Some (appendHelp (ok_or (appendOpt opt_new (str "d") double_accepts)) (str "h"))
  else if str_eq cmd (str "status") then Some (appendHelp (ok_or (appendOpt opt_new (str "c") char_accepts)) (str "h"))
  else None.
(** how the process ends: usage of opt1 or opt2 and status 1; the help of either and status 0; the settings are put, status 0 *)
Inductive ended := Usage1 | Usage2 | Help | Put (cmd : list Z) (o1 o2 : opt).
(** option2_smpl.cpp:21-61 parse1 and parse; printing is not modelled *)
Definition option2_smpl (argv : list (list Z)) : res ended :=
  let! r := parse opt1 argv 1 false in
  match r with
  | PExit => Ok Help
  | PFalse => Ok Usage1
  | PTrue o1 pos _ =>
    if pos =? 0 then Ok Usage1 else
    let! cmd := rd argv (pos - 1) in
    match opt2 cmd with
    | None => Ok Usage1
    | Some o2 =>
      let! r := parse o2 argv pos false in
      Ok (match r with PExit => Help | PFalse => Usage2 | PTrue o2 _ _ => Put cmd o1 o2 end)
    end
  end.
End Sample.
