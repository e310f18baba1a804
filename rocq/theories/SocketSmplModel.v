(** Model of sample/socket_smpl.cpp: the options, the mode given to Socket::bind, and the loop of the server. *)
Require Import Verif.Common Verif.Text Verif.AtoiModel Verif.ConfigModel Verif.OptionModel Verif.Option2Model Verif.ExceptionModel.
Require Verif.TransferModel.

(** option.hpp:121-173: the texts a variable of an integer type takes *)
Definition accepts (t : ityp) (s : list Z) : bool := match convertInt t s with Ok (b, _) => b | _ => false end.
Definition any_text (s : list Z) : bool := true.
(** socket_smpl.cpp:19-25 *)
Definition smpl_opt : opt :=
  ok_or (let! o := appendOpt opt_new (str "ip") any_text in
         let! o := appendBoolOpt o (str "v") any_text in
         let! o := appendOpt o (str "m") (accepts ty_i32) in
         let! o := appendOpt o (str "p") (accepts ty_u16) in
         let! o := appendOpt o (str "t") (accepts ty_i32) in
         appendParamOpt o (str "cmd") any_text).
(** the value of a variable after parse: the last text given to it, or what it held before *)
Definition last_text (l : list info) (name : list Z) : option (list Z) :=
  match find (fun i => str_eq name (i_name i)) l with Some i => last (map Some (i_got i)) None | None => None end.
Definition text_var (l : list info) (name before : list Z) : list Z := match last_text l name with Some s => s | None => before end.
Definition int_var (t : ityp) (l : list info) (name : list Z) (before : Z) : Z :=
  match last_text l name with Some s => match convertInt t s with Ok (_, Some v) => v | _ => before end | None => before end.

Definition allowIPv4 : Z := 1.
Definition allowIPv6 : Z := 2.
(** socket_smpl.cpp:26-39: the switch, which comes before parse; None: bad mode *)
Definition mode_switch (mode : Z) : option Z :=
  if mode =? 0 then Some (Z.lor allowIPv4 allowIPv6) else if mode =? 4 then Some allowIPv4 else if mode =? 6 then Some allowIPv6 else None.

Record settings := mk_settings { st_ip : list Z; st_port : Z; st_mode : Z; st_msec : Z; st_cmd : list Z }.
(** how the start ends: bad mode or usage and status 1; the usage of the help option and status 0; or the program runs *)
Inductive start := BadMode | Usage | Help | Run (s : settings).
(** socket_smpl.cpp:12-46; appendOpt gave mode the value 0; timeoutSec * 1000 is a product of ints *)
Definition startup (argv : list (list Z)) : res start :=
  match mode_switch 0 with
  | None => Ok BadMode
  | Some mode =>
    let! r := parse smpl_opt argv 1 false in
    match r with
    | PExit => Ok Help
    | PFalse => Ok Usage
    | PTrue o _ _ =>
      let ms := int_var ty_i32 (o_infos o) (str "t") 5 * 1000 in
      if (ms <? - 2 ^ 31) || (2 ^ 31 <=? ms) then UB else
      Ok (Run (mk_settings (text_var (o_infos o) (str "ip") []) (int_var ty_u16 (o_infos o) (str "p") 50000)
                           (int_var ty_i32 (o_infos o) (str "m") mode) ms (text_var (o_params o) (str "cmd") [])))
    end
  end.

(** what a client of the server does: whether it could be accepted and the timeouts set, the results of the system calls that read from it
    (the end of the list: the server waits for ever), the bytes it sends before it closes *)
Record visit := mk_visit { v_ok : bool; v_sched : list TransferModel.kres; v_data : list Z }.
(** printf %s of std::string(buf, n).c_str(): up to the first NUL *)
Fixpoint c_text (l : list Z) : list Z := match l with [] => [] | c :: r => if c =? 0 then [] else c :: c_text r end.
(** socket_smpl.cpp:67 *)
Definition rec_line (b : list Z) : list Z := str "rec=" ++ c_text b ++ str "(" ++ printf_d (zlen b) ++ str ")" ++ [10].
(** Dead: an exception left the loop, and main with it (74-76) *)
Inductive fate := Waiting | Dead | Undefined.
(** socket_smpl.cpp:51-69 the loop of the server; char buf[128] holds [garbage] when it is entered *)
Fixpoint serve (garbage : nat -> list Z) (vs : list visit) : list (list Z) * fate :=
  match vs with
  | [] => ([], Waiting)
  | v :: vs =>
    if negb (v_ok v) then ([], Dead) else
    match TransferModel.readSome (v_sched v) (garbage O) (v_data v) 0 128 with
    | (Ok n, s) =>
      let '(ls, f) := serve (fun i => garbage (S i)) vs in
      (rec_line (firstn (Z.to_nat n) (TransferModel.rs_buf s)) :: ls, f)
    | (Exn, _) => ([], Dead)
    | (UB, _) => ([], Undefined)
    | (Fuel, _) => ([], Waiting)
    end
  end.
