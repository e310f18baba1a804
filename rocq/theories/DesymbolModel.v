(** Model of sample/desymbol.cpp (the reader of stack traces) and of the lookup in include/cybozu/bfd.hpp.  The text read is a byte list;
    the output is what is written to stdout.  The section table and bfd_find_nearest_line, and __cxa_demangle, are inputs. *)
Require Import Verif.Common Verif.Text Verif.AtoiModel Verif.StrOpModel Verif.ConfigModel Verif.ExceptionModel.

(** ** bfd.hpp *)
(** a section: where it is loaded, its size, and what bfd_find_nearest_line says for an offset in it (file and func may be NULL) *)
Record section := mk_section { s_vma : Z; s_size : Z; s_nearest : Z -> option (option (list Z) * option (list Z) * Z) }.
(** bfd.hpp:72-86 struct Data *)
Record bdata := mk_bdata { b_pc : Z; b_file : list Z; b_func : list Z; b_line : Z; b_found : bool }.
(** bfd.hpp:87-102 findAddress, called for each section in turn; vma + size is a 64-bit sum.  Simplification: a failing
    bfd_find_nearest_line leaves line alone *)
Definition findAddress (sec : option section) (d : bdata) : bdata :=
  if b_found d then d else
  match sec with
  | None => d
  | Some s =>
    if b_pc d <? s_vma s then d else
    if (s_vma s + s_size s) mod 2 ^ 64 <=? b_pc d then d else
    match s_nearest s (b_pc d - s_vma s) with
    | None => d
    | Some (file, func, line) =>
      mk_bdata (b_pc d) (match file with Some f => f | None => b_file d end) (match func with Some f => f | None => b_func d end) line true
    end
  end.
(** bfd.hpp:63-70 getInfo with empty strings passed in; opened: bfd_openr succeeded *)
Definition getInfo (opened : bool) (secs : list (option section)) (addr : Z) : option (list Z * list Z * Z) :=
  if opened then
    let d := fold_left (fun d s => findAddress s d) secs (mk_bdata addr [] [] 0 false) in
    if b_found d then Some (b_file d, b_func d, b_line d) else None
  else None.

(** ** desymbol.cpp *)
(** std::string::find(const char star): the first position where pat starts *)
Fixpoint starts (pat s : list Z) : bool :=
  match pat, s with
  | [], _ => true
  | p :: pat', c :: s' => (p =? c) && starts pat' s'
  | _, [] => false
  end.
Fixpoint find_sub (pat s : list Z) (i : nat) : option nat :=
  if starts pat s then Some i else
  match s with
  | [] => None
  | _ :: r => find_sub pat r (S i)
  end.
Definition find_at (pat s : list Z) (pos : nat) : option nat := find_sub pat (skipn pos s) pos.
(** s.find(pat) == 0 *)
Definition find_is_0 (pat s : list Z) : bool := match find_at pat s 0 with Some O => true | _ => false end.

(** desymbol.cpp:21-31 findAddr; 0 if there is none *)
Definition findAddr (s : list Z) : res Z :=
  match find_at (str "[0x") s 0 with
  | None => Ok 0
  | Some p =>
    match find_at (str "]") s (p + 3) with
    | None => Ok 0
    | Some q =>
      let! (b, addr) := hextoi ty_u64 true (skipn (p + 3) s ++ [0]) (Z.of_nat q - Z.of_nat p - 3) in
      if b : bool then Ok addr else Ok 0
    end
  end.

Section Desymbol.
Variable info : bfd_info.
Variable cxa : list Z -> option (list Z).

(** desymbol.cpp:33-43 decode *)
Definition decode (s : list Z) : res (list Z) :=
  let! addr := findAddr s in
  if addr =? 0 then Ok s else
  match info addr with
  | None => Ok s
  | Some (file, func, line) => Ok (file ++ [58] ++ printf_d line ++ [32] ++ Demangle cxa func ++ [32] ++ s)
  end.

(** isspace in the C locale *)
Definition isspace (c : Z) : bool := (c =? 32) || ((9 <=? c) && (c <=? 13)).
(** istream >> std::string: the next word and what follows it; None at the end *)
Fixpoint skip_ws (s : list Z) : list Z :=
  match s with
  | [] => []
  | c :: r => if isspace c then skip_ws r else s
  end.
Fixpoint take_word (s : list Z) : list Z * list Z :=
  match s with
  | [] => ([], [])
  | c :: r => if isspace c then ([], s) else let '(w, rest) := take_word r in (c :: w, rest)
  end.
Definition next_word (s : list Z) : option (list Z * list Z) :=
  match skip_ws s with
  | [] => None
  | s' => Some (take_word s')
  end.

(** desymbol.cpp:52-65 the loop over the words *)
Fixpoint word_loop (fuel : nat) (s out : list Z) : res (list Z) :=
  match fuel with
  | O => Fuel
  | S f =>
    match next_word s with
    | None => Ok out
    | Some (w, rest) =>
      if negb (find_is_0 (str "0x") w) then Ok out else                       (* 53 *)
      let! (b, addr) := hextoi ty_u64 true (skipn 2 w ++ [0]) (zlen w - 2) in (* 55 *)
      if negb b then Ok out else                                              (* 56 *)
      let out := match info addr with
                 | Some (file, func, line) => out ++ cstr file ++ [58] ++ printf_d line ++ [32] ++ cstr (Demangle cxa func) ++ [32]   (* 60-63 *)
                 | None => out
                 end in
      word_loop f rest (out ++ cstr w ++ [10])                                (* 64 *)
    end
  end.
(** desymbol.cpp:45-68 tryDecodeOnelineAndPut: None if this is not such a line *)
Definition tryDecodeOnelineAndPut (s out : list Z) : res (option (list Z)) :=
  if negb (find_is_0 (str "<<<STACKTRACE>>> ") s) then Ok None else
  let rest := skipn 17 s in
  let! out := word_loop (S (length rest)) rest (out ++ str "<<<STACKTRACE
") in
  Ok (Some (out ++ str ">>>STACKTRACE
")).

(** desymbol.cpp:99-124 the body for one line: inStackTrace and the output *)
Definition one_line (checkAll : bool) (line : list Z) (inTrace : bool) (out : list Z) : res (bool * list Z) :=
  let! line := Strip line in
  let! r := tryDecodeOnelineAndPut line out in
  match r with
  | Some out => Ok (inTrace, out)
  | None =>
    let '(inTrace, doDecode) :=
      if checkAll then (inTrace, true)
      else if inTrace then
        if find_is_0 (str ">>>STACKTRACE") line then (false, false) else (true, true)
      else if find_is_0 (str "<<<STACKTRACE") line then (true, false) else (inTrace, false) in
    let! line := (if doDecode : bool then decode line else Ok line) in
    Ok (inTrace, out ++ cstr line ++ [10])
  end.
(** desymbol.cpp:99 while (std::getline(...)) *)
Fixpoint line_loop (fuel : nat) (checkAll : bool) (data : list Z) (inTrace : bool) (out : list Z) : res (list Z) :=
  match fuel with
  | O => Fuel
  | S f =>
    match getline data with
    | None => Ok out
    | Some (line, rest) => let! (inTrace, out) := one_line checkAll line inTrace out in line_loop f checkAll rest inTrace out
    end
  end.
(** desymbol.cpp:70-127 main on this text *)
Definition desymbol (checkAll : bool) (text : list Z) : res (list Z) := line_loop (S (length text)) checkAll text false [].
End Desymbol.
