(** Model of include/cybozu/atoi.hpp.
    A pointer [p] to characters is the list of bytes (0..255) readable from it on; reading beyond
    the end of that list is [UB].  [size] is the size_t argument (2^64-1 stands for the default
    "size_t(-1)", i.e. NUL-terminated mode).  The result of a successful call is the pair
    (value of *b, returned value). *)
Require Import Verif.Common.

Definition size_max : Z := 2 ^ 64 - 1.

(** An integer type instance: range and the template arguments used at atoi.hpp:157-188. *)
Record ityp := mk_ityp {
  t_signed : bool;
  t_min : Z;
  t_max : Z;
  t_maxstr : list Z;   (* the string argument "max", signed types only *)
  t_ov1 : Z;           (* overflow1 *)
  t_ov2 : Z            (* overflow2, a character code *)
}.

(* atoi.hpp:159 "128", -128, 12, '8' *)
Definition ty_i8 := mk_ityp true (-128) 127 [49;50;56] 12 56.
(* atoi.hpp:163 25, '6' *)
Definition ty_u8 := mk_ityp false 0 255 [] 25 54.
(* atoi.hpp:167 "32768", -32768, 3276, '8' *)
Definition ty_i16 := mk_ityp true (-32768) 32767 [51;50;55;54;56] 3276 56.
(* atoi.hpp:171 6553, '6' *)
Definition ty_u16 := mk_ityp false 0 65535 [] 6553 54.
(* atoi.hpp:175 "2147483648", INT_MIN, 214748364, '8' *)
Definition ty_i32 := mk_ityp true (-2147483648) 2147483647
  [50;49;52;55;52;56;51;54;52;56] 214748364 56.
(* atoi.hpp:179 429496729, '6' *)
Definition ty_u32 := mk_ityp false 0 4294967295 [] 429496729 54.
(* atoi.hpp:183 "9223372036854775808", LLONG_MIN, 922337203685477580, '8' *)
Definition ty_i64 := mk_ityp true (-9223372036854775808) 9223372036854775807
  [57;50;50;51;51;55;50;48;51;54;56;53;52;55;55;53;56;48;56] 922337203685477580 56.
(* atoi.hpp:187 1844674407370955161, '6' *)
Definition ty_u64 := mk_ityp false 0 18446744073709551615 [] 1844674407370955161 54.

(** exception.hpp:64-67 makeString: std::string(str, min(size,16)) reads that many bytes
    unconditionally.  Used when the error exception is built. *)
Definition throw_with (p : list Z) (size : Z) : res (bool * Z) :=
  if zlen p <? Z.min size 16 then UB else Exn.

(** atoi.hpp:51-56 / 81-86 / 116-121: the failure exit; [b] says whether the bool pointer is set. *)
Definition fail_exit (b : bool) (p : list Z) (size : Z) : res (bool * Z) :=
  if b then Ok (false, 0) else throw_with p size.

(** atoi.hpp:29 and 65: while (i < size && p[i] == '0') i++;   [p],[n] are p+i and size-i. *)
Fixpoint skip_zero (p : list Z) (n : Z) : res (list Z * Z) :=
  if n <=? 0 then Ok (p, n) else
  match p with
  | [] => UB
  | c :: p' => if c =? 48 then skip_zero p' (n - 1) else Ok (p, n)
  end.

(** atoi.hpp:36-48 and 67-79: the digit loop.  [None] is the "break" to the failure exit.
    "unsigned int y = c - '0'" wraps, so characters below '0' give a large y.
    The assignment x = x * 10 + y is UB here if it leaves the type's range. *)
Fixpoint digit_loop (t : ityp) (p : list Z) (n : Z) (x : Z) : res (option Z) :=
  if n <=? 0 then Ok (Some x) else
  match p with
  | [] => UB
  | c :: p' =>
    if c =? 0 then Ok (Some x) else
    let y := (c - 48) mod 2 ^ 32 in
    if (9 <? y) || (t_ov1 t <? x) || ((x =? t_ov1 t) && (t_ov2 t <=? c)) then Ok None
    else
      let x' := x * 10 + y in
      if (x' <? t_min t) || (t_max t <? x') then UB else digit_loop t p' (n - 1) x'
  end.

(** memcmp(max, q, n-1) == 0 : all n-1 bytes must be readable. *)
Fixpoint list_eqb (a b : list Z) : bool :=
  match a, b with
  | [], [] => true
  | x :: a', y :: b' => (x =? y) && list_eqb a' b'
  | _, _ => false
  end.
Definition memcmp_eq (s q : list Z) : res bool :=
  if (length q <? length s)%nat then UB else Ok (list_eqb s (firstn (length s) q)).

(** atoi.hpp:17-57 convertToInt *)
Definition convertToInt (t : ityp) (b : bool) (p : list Z) (size : Z) : res (bool * Z) :=
  if size <=? 0 then fail_exit b p size else
  let! c0 := rd p 0 in
  if c0 =? 0 then fail_exit b p size else
  let isMinus := c0 =? 45 in
  let q := if isMinus then tl p else p in
  let n := if isMinus then size - 1 else size in
  if n <=? 0 then fail_exit b p size else
  let! c1 := rd q 0 in
  if c1 =? 0 then fail_exit b p size else
  let! (q2, n2) := skip_zero q n in
  let! isMin :=
    (if isMinus && (zlen (t_maxstr t) <=? n2) then memcmp_eq (t_maxstr t) q2 else Ok false) in
  if isMin then Ok (true, t_min t) else
  let! r := digit_loop t q2 n2 0 in
  match r with
  | Some x => Ok (true, if isMinus then - x else x)
  | None => fail_exit b p size
  end.

(** atoi.hpp:59-87 convertToUint *)
Definition convertToUint (t : ityp) (b : bool) (p : list Z) (size : Z) : res (bool * Z) :=
  if size <=? 0 then fail_exit b p size else
  let! c0 := rd p 0 in
  if c0 =? 0 then fail_exit b p size else
  let! (q2, n2) := skip_zero p size in
  let! r := digit_loop t q2 n2 0 in
  match r with
  | Some x => Ok (true, x)
  | None => fail_exit b p size
  end.

(** atoi.hpp:101-109: value of a hex digit; the comparisons are on unsigned int. *)
Definition hex_digit (c : Z) : option Z :=
  if (c - 65) mod 2 ^ 32 <=? 5 then Some ((c - 65) mod 2 ^ 32 + 10)
  else if (c - 97) mod 2 ^ 32 <=? 5 then Some ((c - 97) mod 2 ^ 32 + 10)
  else if (c - 48) mod 2 ^ 32 <=? 9 then Some ((c - 48) mod 2 ^ 32)
  else None.

(** atoi.hpp:95-114 *)
Fixpoint hex_loop (tmax : Z) (p : list Z) (n : Z) (x : Z) : res (option Z) :=
  if n <=? 0 then Ok (Some x) else
  match p with
  | [] => UB
  | c :: p' =>
    if c =? 0 then Ok (Some x) else
    match hex_digit c with
    | None => Ok None
    | Some d =>
      if tmax / 16 <? x then Ok None else
      let x' := x * 16 + d in
      if tmax <? x' then UB else hex_loop tmax p' (n - 1) x'
    end
  end.

(** atoi.hpp:89-122 convertHexToInt; [t] only contributes numeric_limits<T>::max(). *)
Definition convertHexToInt (t : ityp) (b : bool) (p : list Z) (size : Z) : res (bool * Z) :=
  if size <=? 0 then fail_exit b p size else
  let! c0 := rd p 0 in
  if c0 =? 0 then fail_exit b p size else
  let! r := hex_loop (t_max t) p size 0 in
  match r with
  | Some x => Ok (true, x)
  | None => fail_exit b p size
  end.

(** atoi.hpp:157-195 the conversion operators *)
Definition atoi (t : ityp) (b : bool) (p : list Z) (size : Z) : res (bool * Z) :=
  if t_signed t then convertToInt t b p size else convertToUint t b p size.

(** atoi.hpp:225-235 *)
Definition hextoi := convertHexToInt.

(** atoi.hpp:149-156, 217-224: the std::string constructors; c_str() makes one NUL readable
    after the characters. *)
Definition atoi_str (t : ityp) (b : bool) (s : list Z) : res (bool * Z) := atoi t b (s ++ [0]) (zlen s).
Definition hextoi_str (t : ityp) (b : bool) (s : list Z) : res (bool * Z) := hextoi t b (s ++ [0]) (zlen s).

Definition int_types : list ityp := [ty_i8; ty_u8; ty_i16; ty_u16; ty_i32; ty_u32; ty_i64; ty_u64].
