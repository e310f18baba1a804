(** Model of include/cybozu/format.hpp.  libc's formatting is a parameter: [render dst] is the text that the format and its
    arguments denote while the destination string holds [dst] (the arguments may point into it), or None for an error.  Memory
    from vasprintf is tracked by a trace of events; assign and resize may run out of memory.  char is a byte. *)
Require Import Verif.Common.
Import ListNotations.
Local Open Scope Z_scope.

Definition INT_MAX : Z := 2 ^ 31 - 1.
Inductive event := Malloc | Free | VaStart | VaEnd.
(** how a call ends *)
Inductive end_ := Returns | Throws (* cybozu::Exception *) | BadAlloc | Undefined.
(** end, destination, trace *)
Definition outcome : Type := end_ * list Z * list event.

Section Format.
Variable render : list Z -> option (list Z).
(** format.hpp:35-44 vformat, the branch for other compilers than MSVC; nomem: assign throws (the strong guarantee keeps str).
    vasprintf returns the length as an int, or fails and gives no memory *)
Definition vformat_posix (str : list Z) (nomem : bool) : outcome :=
  match render str with
  | None => (Throws, str, [])
  | Some t =>
      if INT_MAX <? zlen t then (Throws, str, []) else
      if nomem then (BadAlloc, str, [Malloc; Free])
      else (Returns, t, [Malloc; Free])
  end.
(** std::string::resize *)
Definition resize (s : list Z) (n : Z) : list Z := if n <=? zlen s then firstn (Z.to_nat n) s else s ++ repeat 0 (Z.to_nat (n - zlen s)).
(** format.hpp:24-32 vformat of MSVC.  used: the arguments point into the destination, which may
    have moved and is written while it is read: undefined.  _vsprintf_s_l writes the text and a NUL and fails, writing nothing, when they do not fit *)
Definition vformat_msvc (str : list Z) (nomem used : bool) : outcome :=
  match render str with
  | None => (Throws, str, [])
  | Some t =>
      let size := zlen t in
      if INT_MAX <=? size then (Throws, str, []) else
      if nomem then (BadAlloc, str, []) else
      let str := resize str (size + 1) in
      if used then (Undefined, str, []) else
      match render str with
      | None => (Throws, str, [])
      | Some u => if size <? zlen u then (Throws, str, [])
                  else (Returns, resize (u ++ 0 :: skipn (length u + 1) str) size, [])
      end
  end.
(** format.hpp:68-74 format(str, format, ...), given vformat *)
Definition format (vformat : list Z -> outcome) (str : list Z) : outcome :=
  let '(e, s, ev) := vformat str in
  (e, s, [VaStart] ++ ev ++ match e with Returns => [VaEnd] | _ => [] end).
(** format.hpp:79-87 the form that returns a string *)
Definition format_new (vformat : list Z -> outcome) : outcome := format vformat [].
End Format.
