(** C string literals as byte lists. *)
Require Import Verif.Common.
Require Coq.Strings.String Coq.Strings.Ascii.
Export String.StringSyntax.
Definition str (s : String.string) : list Z :=
  map (fun a => Z.of_N (Ascii.N_of_ascii a)) (String.list_ascii_of_string s).
Bind Scope string_scope with String.string.
