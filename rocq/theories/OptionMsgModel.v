(** Model of what include/cybozu/option.hpp prints: the error message of Option::parse and the text of usage().  C strings are their bytes
    without the NUL.  The parsing itself is that of OptionModel; here every exit of parse comes with its output. *)
Require Import Verif.Common Verif.Text Verif.ConfigModel Verif.OptionModel Verif.OptIoModel Verif.ExceptionModel.

(** the texts an Option holds beside its variables: option.hpp:345-350 desc_, usage_, showOptUsage_, help_ and Info::help of each option,
    parameter and of remains_ (the k-th text belongs to the k-th item) *)
Record texts := mk_texts { t_desc : list Z; t_usage : list Z; t_show : bool; t_opts : list (list Z); t_params : list (list Z); t_rest : list Z; t_help : list Z }.
(** option.hpp:396-402: showOptUsage_ is true at first *)
Definition texts_new := mk_texts [] [] true [] [] [] [].
(** option.hpp:660-663 *)
Definition setDescription (t : texts) (d : list Z) : texts := mk_texts d (t_usage t) (t_show t) (t_opts t) (t_params t) (t_rest t) (t_help t).
(** option.hpp:668-672; showOptUsage is false unless it is given *)
Definition setUsage (t : texts) (u : list Z) (show : bool) : texts := mk_texts (t_desc t) u show (t_opts t) (t_params t) (t_rest t) (t_help t).

(** option.hpp:324-327 Info::usage *)
Definition info_usage (i : info) (help : list Z) : list Z :=
  str "  -" ++ i_name i ++ str " " ++ help ++ (if i_must i then str " (must)" else []) ++ [10].
(** option.hpp:328-331 Info::shortUsage *)
Definition shortUsage (i : info) : list Z :=
  str " -" ++ i_name i ++ str " " ++ match i_mode i with N_is0 => [] | N_is1 => str "para" | N_any => str "para..." end.
Definition is_nil {A} (l : list A) : bool := match l with [] => true | _ => false end.
(** option.hpp:679-681 *)
Fixpoint short_all (l : list info) : list Z := match l with [] => [] | i :: r => (if i_must i then shortUsage i else []) ++ short_all r end.
(** option.hpp:682-684 *)
Fixpoint param_names (l : list info) : list Z := match l with [] => [] | p :: r => str " " ++ i_name p ++ param_names r end.
(** option.hpp:692-695 *)
Fixpoint param_helps (l : list info) (h : list (list Z)) : list Z :=
  match l, h with
  | p :: r, h :: hs => (if is_nil h then [] else str "  " ++ i_name p ++ str " " ++ h ++ [10]) ++ param_helps r hs
  | _, _ => []
  end.
(** option.hpp:700-702 *)
Fixpoint opt_helps (l : list info) (h : list (list Z)) : list Z :=
  match l, h with i :: r, h :: hs => info_usage i h ++ opt_helps r hs | _, _ => [] end.
(** option.hpp:673-703 usage *)
Definition usage (o : opt) (t : texts) (progName : list Z) : list Z :=
  (if is_nil (t_desc t) then [] else t_desc t ++ [10]) ++
  let details :=
    param_helps (o_params o) (t_params t) ++
    (if is_nil (t_rest t) then [] else str "  " ++ i_name (o_remains o) ++ str " " ++ t_rest t ++ [10]) ++
    (if is_nil (o_help o) then [] else str "  -" ++ o_help o ++ str " " ++ t_help t ++ [10]) ++
    opt_helps (o_infos o) (t_opts t) in
  if is_nil (t_usage t) then
    str "usage:" ++ progName ++ (if is_nil (o_infos o) then [] else str " [opt]") ++ short_all (o_infos o) ++ param_names (o_params o) ++
    match o_pmode o with P_variable => str " " ++ i_name (o_remains o) | _ => [] end ++ [10] ++ details
  else t_usage t ++ [10] ++ (if t_show t then details else []).

(** option.hpp:65-100 OptionError, exception.hpp:156-178 and the printf of 655: the name, then every part behind a colon *)
Definition complain (parts : list (list Z)) : list Z := str "OptionError" ++ flat_map (fun p => 58 :: p) parts ++ [10].
(** option.hpp:588-603: inr: this value is the j-th and it is rejected *)
Fixpoint any_msg (fuel : nat) (argv : list (list Z)) (pos : Z) (i : info) (j : Z) : res (info * Z * Z + list Z * Z) :=
  match fuel with
  | O => Fuel
  | S f =>
    if pos <? zlen argv then
      let! a := rd argv pos in
      if isOpt a then Ok (inl (i, pos, j)) else
      let (i', ok) := var_set i a in
      if ok then any_msg f argv (pos + 1) i' (j + 1) else Ok (inr (a, j))
    else Ok (inl (i, pos, j))
  end.
(** option.hpp:609-619: the first parameter not set yet; its name if it rejects the value *)
Fixpoint param_msg (l : list info) (a : list Z) : list info * bool * option (list Z) :=
  match l with
  | [] => ([], false, None)
  | p :: r => if i_set p then let '(r', u, bad) := param_msg r a in (p :: r', u, bad)
              else let (p', ok) := var_set p a in (p' :: r, true, if ok then None else Some (i_name p))
  end.
(** the first mandatory item of the list that is not set: option.hpp:631-637, 639-645 *)
Fixpoint missing (l : list info) : option (list Z) :=
  match l with [] => None | i :: r => if i_must i && negb (i_set i) then Some (i_name i) else missing r end.
(** option.hpp:630-656: the checks after the loop; the message, if parse is false *)
Definition check_msg (o : opt) : option (list Z) :=
  match missing (o_infos o) with
  | Some n => Some (complain [str "opt is necessary"; n])
  | None =>
    match missing (o_params o) with
    | Some n => Some (complain [str "param is necessary"; n])
    | None => match o_pmode o with
              | P_variable => match missing [o_remains o] with Some n => Some (complain [str "param is necessary"; n]) | None => None end
              | _ => None
              end
    end
  end.
(** option.hpp:544-656 with the output *)
Fixpoint msg_loop (t : texts) (pn : list Z) (fuel : nat) (o : opt) (argv : list (list Z)) (pos : Z) : res (pres * list Z) :=
  match fuel with
  | O => Fuel
  | S f =>
    if pos <? zlen argv then
      let! a := rd argv pos in
      if inDelimiters o a then
        Ok match check_msg o with None => (PTrue o (pos + 1) (if o_keep o then skipn (Z.to_nat (pos + 1)) argv else []), []) | Some m => (PFalse, m) end
      else if isOpt a then
        let s := skipn 1 a in
        if str_eq (o_help o) s then Ok (PExit, usage o t pn) else
        match find_opt (o_infos o) s with
        | None => Ok (PFalse, complain [str "bad opt"])
        | Some n =>
          let! i := rd (o_infos o) (Z.of_nat n) in
          match i_mode i with
          | N_is0 =>
            let (i', ok) := var_set i [49] in
            if ok then msg_loop t pn f (set_infos o (upd (o_infos o) n i')) argv (pos + 1) else Ok (PFalse, complain [str "bad value"])
          | N_is1 =>
            if pos + 1 =? zlen argv then Ok (PFalse, complain [str "bad value"; str "no value for -" ++ i_name i]) else
            let! v := rd argv (pos + 1) in
            let (i', ok) := var_set i v in
            if ok then msg_loop t pn f (set_infos o (upd (o_infos o) n i')) argv (pos + 1 + 1)
            else Ok (PFalse, complain [str "bad value"; v ++ str " for -" ++ i_name i])
          | N_any =>
            let! r := any_msg (S (length argv)) argv (pos + 1) i 0 in
            match r with
            | inr (v, j) => Ok (PFalse, complain [str "bad value"; v ++ str " for -" ++ i_name i; printf_d j])
            | inl (i', pos', j) =>
              if 0 <? j then msg_loop t pn f (set_infos o (upd (o_infos o) n i')) argv (pos' - 1 + 1)
              else Ok (PFalse, complain [str "no value"; str "for -" ++ i_name i])
            end
          end
        end
      else
        let '(ps, used, bad) := param_msg (o_params o) a in
        match bad with
        | Some n => Ok (PFalse, complain [str "bad value"; a ++ str " for " ++ n])
        | None =>
          if used then msg_loop t pn f (set_params o ps) argv (pos + 1) else
          match o_pmode o with
          | P_variable => msg_loop t pn f (set_remains o (fst (var_set (o_remains o) a))) argv (pos + 1)
          | _ => Ok (PFalse, complain [str "redundant argVal"; a])
          end
        end
    else Ok match check_msg o with None => (PTrue o (zlen argv) [], []) | Some m => (PFalse, m) end
  end.
(** option.hpp:538-543; prog: the progName that is given.  progName_ is what usage prints *)
Definition parse_msg (t : texts) (o : opt) (argv : list (list Z)) (startPos : Z) (prog : option (list Z)) : res (pres * list Z) :=
  if (zlen argv <? 1) || (zlen argv <? startPos) then Ok (PFalse, []) else
  let! p := (match prog with Some p => Ok p | None => rd argv (startPos - 1) end) in
  msg_loop t (getBaseName p) (S (length argv)) o argv startPos.
