(** Model of include/cybozu/option.hpp. C strings are their bytes without the NUL. Printing (usage, error messages) is in OptionMsgModel. *)
Require Import Verif.Common Verif.AtoiModel Verif.ConfigModel.

(** option.hpp:130-141: factor of a suffix character *)
Definition factor_of (c : Z) : Z :=
  if c =? 107 then 1000 else if c =? 109 then 1000 * 1000 else if c =? 103 then 1000 * 1000 * 1000 else
  if c =? 75 then 1024 else if c =? 77 then 1024 * 1024 else if c =? 71 then 1024 * 1024 * 1024 else 1.
(** y * factor for y of type T and an int factor: types narrower than int are promoted to int; signed overflow is UB, unsigned wraps;
    then static_cast<T> *)
Definition mul_cast (t : ityp) (y factor : Z) : res Z :=
  let m := y * factor in
  if t_max t <=? t_max ty_i32 then (if (m <? t_min ty_i32) || (t_max ty_i32 <? m) then UB else
      Ok (let w := t_max t - t_min t + 1 in (m - t_min t) mod w + t_min t))
  else if t_signed t then (if (m <? t_min t) || (t_max t <? m) then UB else Ok m)
  else Ok (m mod (t_max t + 1)).
(** option.hpp:121-156 convertInt: (returned bool, value stored in *x if it is written) *)
Definition convertInt (t : ityp) (s : list Z) : res (bool * option Z) :=
  let str := s ++ [0] in
  let! c0 := rd str 0 in
  let! hex := (if c0 =? 48 then let! c1 := rd str 1 in Ok (c1 =? 120) else Ok false) in
  if hex then let! (b, v) := hextoi t true (skipn 2 str) size_max in Ok (b, Some v) else
  let len := zlen s in
  let! (factor, len) :=
    (if 1 <? len then let! c := rd str (len - 1) in
       let f := factor_of c in Ok (f, if f =? 1 then len else len - 1)
     else Ok (1, len)) in
  let! (b, y) := atoi t true str len in
  if negb b then Ok (false, None) else
  if 1 <? factor then
    if (Z.quot (t_min t) factor <=? y) && (y <=? Z.quot (t_max t) factor) then
      let! v := mul_cast t y factor in Ok (true, Some v)
    else Ok (false, None)
  else Ok (true, Some y).

(** option.hpp:284-288 *)
Inductive mode := N_is0 | N_is1 | N_any.
(** option.hpp:289-293 *)
Inductive pmode := P_exact | P_optional | P_variable.
(** option.hpp:191-335 Info with its Var and Holder. The bound C++ variable is seen through its holder: [i_acc] says which texts its
    conversion accepts, [i_got] lists the texts successfully stored so far in order (a scalar holds the conversion of the last one,
    a vector has pushed all of them, :204, :226-232). *)
Record info := mk_info { i_name : list Z; i_mode : mode; i_must : bool; i_acc : list Z -> bool; i_set : bool; i_got : list (list Z) }.
(** option.hpp:271-275 Var::set *)
Definition var_set (i : info) (s : list Z) : info * bool :=
  let ok := i_acc i s in
  (mk_info (i_name i) (i_mode i) (i_must i) (i_acc i) true (if ok then i_got i ++ [s] else i_got i), ok).
(** option.hpp:339-352. optMap_ maps a name to its index in infoVec_; names are unique (:358), so it is a search by name in infoVec_. *)
Record opt := mk_opt { o_infos : list info; o_params : list info; o_pmode : pmode; o_remains : info; o_help : list Z;
                       o_delims : list (list Z); o_keep : bool }.
Definition no_info := mk_info [] N_is0 false (fun _ => false) false [].
(** option.hpp:396-402 *)
Definition opt_new := mk_opt [] [] P_exact no_info [] [] false.
Fixpoint find_opt (l : list info) (n : list Z) : option nat :=
  match l with
  | [] => None
  | i :: r => if str_eq n (i_name i) then Some O else option_map S (find_opt r n)
  end.
(** option.hpp:353-363; the name is a C string, opt[0] of an empty one is its NUL *)
Definition appendSub (o : opt) (m : mode) (must : bool) (name : list Z) (acc : list Z -> bool) : res opt :=
  let! c := rd (name ++ [0]) 0 in
  if (48 <=? c) && (c <=? 57) then Exn else
  match find_opt (o_infos o) name with
  | Some _ => Exn
  | None => Ok (mk_opt (o_infos o ++ [mk_info name m must acc false []]) (o_params o) (o_pmode o) (o_remains o) (o_help o) (o_delims o) (o_keep o))
  end.
(** option.hpp:418-441, 448-452: appendOpt, appendBoolOpt (bool >> accepts "1"), appendMust, appendVec; the default assigned to the
    variable is the caller's *)
Definition appendOpt o name acc := appendSub o N_is1 false name acc.
Definition appendBoolOpt o name acc := appendSub o N_is0 false name acc.
Definition appendMust o name acc := appendSub o N_is1 true name acc.
Definition appendVec o name acc := appendSub o N_any false name acc.
(** option.hpp:381-384 *)
Definition verifyParamMode (o : opt) : bool := match o_pmode o with P_exact => true | _ => false end.
(** option.hpp:459-464 *)
Definition appendParam (o : opt) (name : list Z) (acc : list Z -> bool) : res opt :=
  if verifyParamMode o then
    Ok (mk_opt (o_infos o) (o_params o ++ [mk_info name N_is1 true acc false []]) (o_pmode o) (o_remains o) (o_help o) (o_delims o) (o_keep o))
  else Exn.
(** option.hpp:473-480 *)
Definition appendParamOpt (o : opt) (name : list Z) (acc : list Z -> bool) : res opt :=
  if verifyParamMode o then
    Ok (mk_opt (o_infos o) (o_params o ++ [mk_info name N_is1 false acc false []]) P_optional (o_remains o) (o_help o) (o_delims o) (o_keep o))
  else Exn.
(** option.hpp:488-498 *)
Definition appendParamVec (o : opt) (name : list Z) (acc : list Z -> bool) : res opt :=
  if verifyParamMode o then
    Ok (mk_opt (o_infos o) (o_params o) P_variable (mk_info name N_any false acc false []) (o_help o) (o_delims o) (o_keep o))
  else Exn.
(** option.hpp:499-503 *)
Definition appendHelp (o : opt) (name : list Z) : opt :=
  mk_opt (o_infos o) (o_params o) (o_pmode o) (o_remains o) name (o_delims o) (o_keep o).
(** option.hpp:509-521 setDelimiter (keep: a non-null vector is given) and appendDelimiter *)
Definition setDelimiter (o : opt) (d : list Z) (keep : bool) : opt :=
  mk_opt (o_infos o) (o_params o) (o_pmode o) (o_remains o) (o_help o) (o_delims o ++ [d]) keep.
Definition appendDelimiter (o : opt) (d : list Z) : opt :=
  mk_opt (o_infos o) (o_params o) (o_pmode o) (o_remains o) (o_help o) (o_delims o ++ [d]) (o_keep o).
(** option.hpp:525 *)
Definition clearDelimiterList (o : opt) : opt :=
  mk_opt (o_infos o) (o_params o) (o_pmode o) (o_remains o) (o_help o) [] (o_keep o).

(** option.hpp:374-380; str[1] is read only after str[0] == '-', so at worst it is the NUL *)
Definition isOpt (s : list Z) : bool :=
  match s with
  | c :: r => if c =? 45 then match r with d :: _ => negb ((48 <=? d) && (d <=? 57)) | [] => true end else false
  | [] => false
  end.
(** option.hpp:391-394 *)
Definition inDelimiters (o : opt) (s : list Z) : bool := existsb (str_eq s) (o_delims o).

(** result of parse: true with the updated Option, getNextPositionOfDelimiter and the strings pushed to remainsAfterDelimiter;
    false (the partially updated state is not observed); exit(0) after usage *)
Inductive pres := PTrue (o : opt) (next : Z) (after : list (list Z)) | PFalse | PExit.
Definition set_infos (o : opt) (l : list info) : opt := mk_opt l (o_params o) (o_pmode o) (o_remains o) (o_help o) (o_delims o) (o_keep o).
Definition set_params (o : opt) (l : list info) : opt := mk_opt (o_infos o) l (o_pmode o) (o_remains o) (o_help o) (o_delims o) (o_keep o).
Definition set_remains (o : opt) (r : info) : opt := mk_opt (o_infos o) (o_params o) (o_pmode o) r (o_help o) (o_delims o) (o_keep o).
(** option.hpp:590-597: while (pos < argc && !isOpt(argv[pos])); None: a value is rejected; else the info, pos and j *)
Fixpoint any_loop (fuel : nat) (argv : list (list Z)) (pos : Z) (i : info) (j : Z) : res (option (info * Z * Z)) :=
  match fuel with
  | O => Fuel
  | S f =>
    if pos <? zlen argv then
      let! a := rd argv pos in
      if isOpt a then Ok (Some (i, pos, j)) else
      let (i', ok) := var_set i a in
      if ok then any_loop f argv (pos + 1) i' (j + 1) else Ok None
    else Ok (Some (i, pos, j))
  end.
(** option.hpp:609-619: the first parameter not set yet; (params, used, rejected) *)
Fixpoint set_param (l : list info) (a : list Z) : list info * bool * bool :=
  match l with
  | [] => ([], false, false)
  | p :: r => if i_set p then let '(r', u, bad) := set_param r a in (p :: r', u, bad)
              else let (p', ok) := var_set p a in (p' :: r, true, negb ok)
  end.
(** option.hpp:630-651: the checks after the loop *)
Definition all_must (o : opt) : bool :=
  forallb (fun i => negb (i_must i && negb (i_set i))) (o_infos o) &&
  forallb (fun i => negb (i_must i && negb (i_set i))) (o_params o) &&
  match o_pmode o with P_variable => negb (i_must (o_remains o) && negb (i_set (o_remains o))) | _ => true end.
(** option.hpp:544-656 *)
Fixpoint parse_loop (fuel : nat) (o : opt) (argv : list (list Z)) (pos : Z) : res pres :=
  match fuel with
  | O => Fuel
  | S f =>
    if pos <? zlen argv then
      let! a := rd argv pos in
      if inDelimiters o a then
        Ok (if all_must o then PTrue o (pos + 1) (if o_keep o then skipn (Z.to_nat (pos + 1)) argv else []) else PFalse)
      else if isOpt a then
        let s := skipn 1 a in
        if str_eq (o_help o) s then Ok PExit else
        match find_opt (o_infos o) s with
        | None => Ok PFalse
        | Some n =>
          let! i := rd (o_infos o) (Z.of_nat n) in
          match i_mode i with
          | N_is0 =>
            let (i', ok) := var_set i [49] in
            if ok then parse_loop f (set_infos o (upd (o_infos o) n i')) argv (pos + 1) else Ok PFalse
          | N_is1 =>
            if pos + 1 =? zlen argv then Ok PFalse else
            let! v := rd argv (pos + 1) in
            let (i', ok) := var_set i v in
            if ok then parse_loop f (set_infos o (upd (o_infos o) n i')) argv (pos + 1 + 1) else Ok PFalse
          | N_any =>
            let! r := any_loop (S (length argv)) argv (pos + 1) i 0 in
            match r with
            | None => Ok PFalse
            | Some (i', pos', j) =>
              if 0 <? j then parse_loop f (set_infos o (upd (o_infos o) n i')) argv (pos' - 1 + 1) else Ok PFalse
            end
          end
        end
      else
        let '(ps, used, bad) := set_param (o_params o) a in
        if bad then Ok PFalse else
        if used then parse_loop f (set_params o ps) argv (pos + 1) else
        match o_pmode o with
        | P_variable => parse_loop f (set_remains o (fst (var_set (o_remains o) a))) argv (pos + 1)
        | _ => Ok PFalse
        end
    else Ok (if all_must o then PTrue o (zlen argv) [] else PFalse)
  end.
(** option.hpp:538-543; [prog]: a progName is given. progName_ is used for usage only. *)
Definition parse (o : opt) (argv : list (list Z)) (startPos : Z) (prog : bool) : res pres :=
  if (zlen argv <? 1) || (zlen argv <? startPos) then Ok PFalse else
  let! _ := (if prog then Ok [] else rd argv (startPos - 1)) in
  parse_loop (S (length argv)) o argv startPos.
