(** Model of include/cybozu/csv.hpp. *)
Require Import Verif.Common Verif.StreamModel.

(** char -> int conversion of a byte (char is signed on the modelled targets) *)
Definition schar (b : Z) : Z := if b <? 128 then b else b - 256.
(** int -> char -> byte *)
Definition to_byte (c : Z) : Z := c mod 256.
Definition EOF := -1.

(** csv.hpp:18-21 isValidSeparator *)
Definition isValidSeparator (c : Z) : bool := (c =? 44) || (c =? 9) || (c =? 59) || (c =? 32).

(** csv.hpp:168-175 members of CsvReaderT; [cr_buf] = buf_[pos_ .. bufSize_), the bytes fetched
    and not yet consumed.  line_ is only used in messages and is left out. *)
Record csv_reader := mk_cr { cr_sep : Z; cr_max : Z; cr_is : istream; cr_lineSize : Z; cr_buf : list Z; cr_eof : bool }.

(** csv.hpp:38-50 constructor *)
Definition csv_open (max : Z) (is : istream) (sep : Z) : res csv_reader :=
  if isValidSeparator sep then Ok (mk_cr sep max is 0 [] false) else Exn.

(** csv.hpp:153-167 my_getchar *)
Definition my_getchar (r : csv_reader) : Z * csv_reader :=
  match cr_buf r with
  | b :: t => (schar b, mk_cr (cr_sep r) (cr_max r) (cr_is r) (cr_lineSize r) t (cr_eof r))
  | [] =>
    match readSome 2048 (cr_is r) with
    | (b :: t, is') => (schar b, mk_cr (cr_sep r) (cr_max r) is' (cr_lineSize r) t (cr_eof r))
    | ([], is') => (EOF, mk_cr (cr_sep r) (cr_max r) is' (cr_lineSize r) [] true)
    end
  end.

(** csv.hpp:139-146 addChar; false in the first component: the exception is thrown *)
Definition addChar (r : csv_reader) (str : list Z) (c : Z) : bool * csv_reader * list Z :=
  let ls := (cr_lineSize r + 1) mod 2 ^ 64 in
  (negb (ls =? cr_max r), mk_cr (cr_sep r) (cr_max r) (cr_is r) ls (cr_buf r) (cr_eof r), str ++ [to_byte c]).

Inductive csv_state := Top | InQuote | SearchSep | NeedSepOrQuote.
Definition CR := 13. Definition LF := 10. Definition quote := 34.

(** csv.hpp:76-136 the loop of read; the row collected in [out] is returned also with false *)
Fixpoint csv_loop (fuel : nat) (st : csv_state) (str : list Z) (out : list (list Z)) (r : csv_reader)
  : res (bool * list (list Z)) * csv_reader :=
  match fuel with
  | O => (Fuel, r)
  | S f =>
    let '(c, r) := my_getchar r in
    if (c =? EOF) && (match str with [] => true | _ => false end) then (Ok (false, out), r) else
    if c =? CR then csv_loop f st str out r else
    match st with
    | Top =>
      if (c =? EOF) || (c =? LF) then
        (Ok (true, match str with [] => out | _ => out ++ [str] end), r)
      else if c =? quote then csv_loop f InQuote str out r
      else if c =? schar (cr_sep r) then csv_loop f Top [] (out ++ [str]) r
      else let '(good, r, str) := addChar r str c in
        if good then csv_loop f SearchSep str out r else (Exn, r)
    | InQuote =>
      if c =? EOF then (Exn, r)
      else if c =? quote then csv_loop f NeedSepOrQuote str out r
      else let '(good, r, str) := addChar r str c in
        if good then csv_loop f InQuote str out r else (Exn, r)
    | NeedSepOrQuote =>
      if (c =? EOF) || (c =? LF) then (Ok (true, out ++ [str]), r)
      else if c =? quote then
        let '(good, r, str) := addChar r str quote in
        if good then csv_loop f InQuote str out r else (Exn, r)
      else if c =? schar (cr_sep r) then csv_loop f Top [] (out ++ [str]) r
      else (Exn, r)
    | SearchSep =>
      if (c =? EOF) || (c =? LF) then (Ok (true, out ++ [str]), r)
      else if c =? schar (cr_sep r) then csv_loop f Top [] (out ++ [str]) r
      else let '(good, r, str) := addChar r str c in
        if good then csv_loop f SearchSep str out r else (Exn, r)
    end
  end.
(** csv.hpp:59-75 read *)
Definition csv_read (out : list (list Z)) (r : csv_reader) : res (bool * list (list Z)) * csv_reader :=
  if cr_eof r then (Ok (false, out), r)
  else csv_loop (S (length (cr_buf r) + length (is_data (cr_is r)))) Top [] [] r.

(** csv.hpp:221-233 append: one field, quoted, with quotes doubled *)
Fixpoint csv_quote (s : list Z) : list Z :=
  match s with
  | [] => []
  | c :: t => (if c =? 34 then [34] else []) ++ c :: csv_quote t
  end.
Definition csv_field (s : list Z) : list Z := 34 :: csv_quote s ++ [34].
(** csv.hpp:206-219, 234-241 write(begin, end): what is appended to the stream *)
Fixpoint csv_fields (sep : Z) (isFirst : bool) (row : list (list Z)) : list Z :=
  match row with
  | [] => []
  | f :: t => (if isFirst then [] else [sep]) ++ csv_field f ++ csv_fields sep false t
  end.
Definition csv_write (sep : Z) (os : list Z) (row : list (list Z)) : list Z :=
  os ++ csv_fields sep true row ++ [13; 10].
