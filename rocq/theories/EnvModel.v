(** Model of include/cybozu/env.hpp.  The environment is the array of "NAME=VALUE" strings of the process. *)
Require Import Verif.Common Verif.Text Verif.ExceptionModel.

(** the part of e after name=, if e starts so *)
Fixpoint after_name (name e : list Z) : option (list Z) :=
  match name, e with
  | [], c :: r => if c =? 61 then Some r else None
  | n :: name', c :: r => if n =? c then after_name name' r else None
  | _, [] => None
  end.
(** getenv of the C library (not part of the repository): the value in the first entry of that name; an empty name has none *)
Fixpoint getenv (environ : list (list Z)) (name : list Z) : option (list Z) :=
  match name with
  | [] => None
  | _ =>
    match environ with
    | [] => None
    | e :: r => match after_name name e with Some v => Some v | None => getenv r name end
    end
  end.
(** getenv_s of the Windows C library into a buffer of cap bytes: None for an error (the value and its NUL do not fit), otherwise the
    size (0 if there is no such variable) and the buffer *)
Definition getenv_s (environ : list (list Z)) (cap : Z) (name : list Z) : option (Z * list Z) :=
  match getenv environ name with
  | None => Some (0, [])
  | Some v => if zlen v + 1 <=? cap then Some (zlen v + 1, v) else None
  end.

(** env.hpp:14-34 QueryEnv: the result and value; win: the _WIN32 branch (16-25) *)
Definition QueryEnv (win : bool) (environ : list (list Z)) (value key : list Z) : bool * list Z :=
  if win then
    match getenv_s environ 4096 (cstr key) with
    | Some (size, buf) => if 0 <? size then (true, firstn (Z.to_nat (size - 1)) buf) else (false, value)
    | None => (false, value)
    end
  else
    match getenv environ (cstr key) with
    | Some p => (true, cstr p)
    | None => (false, value)
    end.
(** env.hpp:42-47 GetEnv(key): the value, or the exception thrown *)
Definition GetEnv (win : bool) (environ : list (list Z)) (key : list Z) : list Z + exn :=
  match QueryEnv win environ [] key with
  | (true, v) => inl v
  | (false, _) => inr (append_str (Exception_new (str "env:GetEnv") true []) key)
  end.
(** env.hpp:56-61 GetEnv(key, defaultValue) *)
Definition GetEnvDef (win : bool) (environ : list (list Z)) (key defaultValue : list Z) : list Z :=
  match QueryEnv win environ [] key with
  | (true, v) => v
  | (false, _) => defaultValue
  end.
