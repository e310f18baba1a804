(** Specification vocabulary for decimal / hexadecimal texts (independent of the model). *)
Require Import Verif.Common.

(** positional value of a digit list, most significant first *)
Definition value (base : Z) (ds : list Z) : Z := fold_left (fun a d => a * base + d) ds 0.

Definition is_digit (c : Z) : Prop := 48 <= c <= 57.               (* '0'..'9' *)
Definition dec_digit (c : Z) : Z := c - 48.
Definition is_xdigit (c : Z) : Prop :=
  48 <= c <= 57 \/ 65 <= c <= 70 \/ 97 <= c <= 102.                (* '0'..'9','A'..'F','a'..'f' *)
Definition xdigit (c : Z) : Z :=
  if c <=? 57 then c - 48 else if c <=? 70 then c - 55 else c - 87.

Definition dec_value (s : list Z) : Z := value 10 (map dec_digit s).
Definition hex_value (s : list Z) : Z := value 16 (map xdigit s).

(** the text shown by a pointer with a maximal size: the bytes before the size limit and before
    the first NUL *)
Fixpoint visible (p : list Z) (n : Z) : list Z :=
  if n <=? 0 then [] else
  match p with
  | [] => []
  | c :: p' => if c =? 0 then [] else c :: visible p' (n - 1)
  end.

(** what a caller must guarantee: either [size] bytes are readable or there is a NUL *)
Definition readable (p : list Z) (size : Z) : Prop := size <= zlen p \/ In 0 p.

(** s is a decimal numeral (leading zeros allowed) for v *)
Definition unsigned_text (s : list Z) (v : Z) : Prop :=
  s <> [] /\ Forall is_digit s /\ v = dec_value s.

(** s is a decimal numeral with optional '-' for v *)
Definition signed_text (s : list Z) (v : Z) : Prop :=
  unsigned_text s v \/ exists d w, s = 45 :: d /\ unsigned_text d w /\ v = - w.

Definition hex_text (s : list Z) (v : Z) : Prop :=
  s <> [] /\ Forall is_xdigit s /\ v = hex_value s.

(** canonical text of a natural number in a base with digit alphabet [dig] (value of a character):
    the right value and no superfluous leading zero *)
Definition canonical (base : Z) (ok : Z -> Prop) (dig : Z -> Z) (s : list Z) (x : Z) : Prop :=
  s <> [] /\ Forall ok s /\ value base (map dig s) = x /\ (forall t, s = 48 :: t -> t = []).

Definition canonical_dec := canonical 10 is_digit dec_digit.
Definition canonical_hex (ok : Z -> Prop) := canonical 16 ok xdigit.
Definition is_bit_char (c : Z) : Prop := c = 48 \/ c = 49.
Definition canonical_bin := canonical 2 is_bit_char dec_digit.

(** canonical text of a signed number *)
Definition canonical_int (s : list Z) (x : Z) : Prop :=
  (0 <= x /\ canonical_dec s x) \/ (x < 0 /\ exists d, s = 45 :: d /\ canonical_dec d (- x)).

(** What the signed parser for the range [lo..hi] accepts: a decimal numeral with optional '-' whose
    value is in range -- plus one deviation of the code: '-' followed by optional zeros, the decimal
    digits of -lo and then arbitrary further characters is taken to be lo. *)
Definition signed_language (lo hi : Z) (s : list Z) (v : Z) : Prop :=
  (signed_text s v /\ lo <= v <= hi) \/
  (exists k d junk, s = 45 :: repeat 48 k ++ d ++ junk /\ canonical_dec d (- lo) /\ v = lo).

Definition unsigned_language (hi : Z) (s : list Z) (v : Z) : Prop := unsigned_text s v /\ v <= hi.

(** Extra readable bytes needed when the text starts with '-' and is given without a true size:
    the code compares up to 19 bytes with the digits of the minimum without looking for the NUL. *)
Definition minus_slack (p : list Z) (size : Z) : Prop :=
  hd 0 p <> 45 \/ size <= zlen p \/ exists a slack, p = a ++ 0 :: slack /\ 18 <= zlen slack.

(** Extra readable bytes needed to build the exception message: min(size,16) bytes are copied. *)
Definition throw_slack (p : list Z) (size : Z) : Prop := Z.min size 16 <= zlen p.

(** alphabets of printed hexadecimal text *)
Definition upper_or_digit (c : Z) : Prop := 48 <= c <= 57 \/ 65 <= c <= 70.
Definition lower_or_digit (c : Z) : Prop := 48 <= c <= 57 \/ 97 <= c <= 102.
Definition hex_alphabet (upCase : bool) : Z -> Prop := if upCase then upper_or_digit else lower_or_digit.
