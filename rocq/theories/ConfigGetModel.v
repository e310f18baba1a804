(** Model of the rest of include/cybozu/config.hpp: values as integers, loading a file by name, and what a load that throws leaves *)
Require Import Verif.Common Verif.AtoiModel Verif.ConfigModel.

(** config.hpp:108-116 ResultType::get<T>.  [alive]: does the std::string behind the reference key_ still exist when the conversion runs
    (the message of the exception reads it); str_ refers to the value in the map *)
Definition rt_get (t : ityp) (alive : bool) (v : list Z) : res Z :=
  let! (b, x) := atoi_str t true v in
  if b then Ok x else if alive then Exn else UB.
(** config.hpp:180-188 getValue(key) and the conversion of its result to T (123-128) in the same full expression *)
Definition getValueAs (t : ityp) (s : section) (key : list Z) : res Z :=
  match queryValue s key with
  | Some v => rt_get t true v
  | None => Exn
  end.
(** the same with the result kept (auto r = s.getValue(key)) and converted after the statement; [named]: key is a std::string of the
    caller, not a temporary made from a literal *)
Definition getValueLater (t : ityp) (s : section) (key : list Z) (named : bool) : res Z :=
  match queryValue s key with
  | Some v => rt_get t named v
  | None => Exn
  end.
(** config.hpp:131-145 getValueInteger, called by 196-219 getValue(key, defaultValue) *)
Definition getValueInteger (t : ityp) (s : section) (key : list Z) (defaultValue : Z) : res Z :=
  match queryValue s key with
  | Some v =>
    let! (b, x) := atoi_str t true v in
    if b then Ok x else Exn
  | None => Ok defaultValue
  end.
(** config.hpp:324-331 load(name), also the constructor 254-257; None: the file cannot be opened *)
Definition load_file (c : config) (file : option (list Z)) : res config :=
  match file with
  | None => Exn
  | Some text => load c text
  end.
(** config.hpp:342-368 once more, keeping the sections read when it throws: the object is changed in place *)
Fixpoint load_loop_st (fuel : nat) (c : config) (cur data : list Z) : res unit * config :=
  match fuel with
  | O => (Fuel, c)
  | S f =>
    match getline data with
    | None => (Ok tt, c)
    | Some (line, rest) =>
      match load_line c cur line with
      | Ok (c, cur) => load_loop_st f c cur rest
      | Exn => (Exn, c)
      | UB => (UB, c)
      | Fuel => (Fuel, c)
      end
    end
  end.
(** config.hpp:336-369 *)
Definition load_st (c : config) (text : list Z) : res unit * config :=
  match appendSection c [] with
  | Ok c => load_loop_st (S (length text)) c [] text
  | Exn => (Exn, c)
  | UB => (UB, c)
  | Fuel => (Fuel, c)
  end.
