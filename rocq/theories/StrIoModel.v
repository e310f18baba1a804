(** Model of the stream functions of include/cybozu/string.hpp: getline, operator>>, operator<<, load, save of String, pop_back.
    std::istream is the rest of its bytes and its eofbit and failbit; std::getline and operator>> of std::string are modelled from the
    standard ("C" locale, no width, exceptions() == goodbit). *)
Require Import Verif.Common Verif.Utf8Model Verif.StringModel Verif.StreamModel Verif.EndianModel Verif.SerializerModel.
Import ListNotations.
Local Open Scope Z_scope.

Record stream := mk_st { left : list Z; eofbit : bool; failbit : bool }.
Definition good (st : stream) : bool := negb (eofbit st) && negb (failbit st).
(** isspace in the "C" locale *)
Definition isspace (c : Z) : bool := ((9 <=? c) && (c <=? 13)) || (c =? 32).
(** the bytes before the first that satisfies p, and the rest from that one on *)
Fixpoint span (p : Z -> bool) (l : list Z) : list Z * list Z :=
  match l with
  | [] => ([], [])
  | c :: r => if p c then ([], l) else let (a, b) := span p r in (c :: a, b)
  end.
(** std::getline(is, tmp, delim) with an empty tmp *)
Definition std_getline (st : stream) (delim : Z) : list Z * stream :=
  if negb (good st) then ([], mk_st (left st) (eofbit st) true) else
  let (a, r) := span (fun c => c =? delim) (left st) in
  match r with
  | [] => (a, mk_st [] true (match a with [] => true | _ => false end))
  | _ :: r => (a, mk_st r false false)
  end.
(** is >> tmp with an empty tmp *)
Definition std_extract (st : stream) : list Z * stream :=
  if negb (good st) then ([], mk_st (left st) (eofbit st) true) else
  let (_, r) := span (fun c => negb (isspace c)) (left st) in
  match r with
  | [] => ([], mk_st [] true true)
  | _ => let (a, r) := span isspace r in (a, mk_st r (match r with [] => true | _ => false end) false)
  end.
(** str.assign(tmp), string.hpp:607-610, 688-691: what is decoded before an error stays *)
Definition assign8 (tmp : list Z) : res unit * list Z :=
  match push8 (length tmp) [] tmp with
  | Ok (a, true) => (Ok tt, a)
  | Ok (a, false) => (Exn, a)
  | _ => (UB, [])
  end.
(** string.hpp:1548-1554 getline: result, str, stream *)
Definition getline (st : stream) (delim : Z) : res unit * list Z * stream :=
  let (tmp, st) := std_getline st delim in
  let (r, str) := assign8 tmp in (r, str, st).
(** string.hpp:1556-1562 operator>> *)
Definition extract (st : stream) : res unit * list Z * stream :=
  let (tmp, st) := std_extract st in
  let (r, str) := assign8 tmp in (r, str, st).
(** string.hpp:1564-1567 operator<<: the bytes of the output stream; toUtf8 (1447-1452) comes before the output *)
Definition insert (os : list Z) (str : list Z) : res unit * list Z :=
  match String_toUtf8 str [] with
  | Ok b => (Ok tt, os ++ b)
  | _ => (Exn, os)
  end.
(** string.hpp:1502 pop_back *)
Definition pop_back (s : list Z) : option (list Z) := bs_erase s ((zlen s - 1) mod 2 ^ 64) 1.
(** string.hpp:477-499, 1607-1609 operator+= and operator+ *)
Definition plus (a b : list Z) : list Z := a ++ b.

Section Host.
Variable little : bool.
Definition size_t : cint := mk_cint 8 false.
(** the characters in memory: 4 bytes each *)
Definition raw (s : list Z) : list Z := concat (map (fun c => savePod little 4 (to_u 32 c)) s).
Fixpoint unraw (n : nat) (b : list Z) : list Z :=
  match n with
  | O => []
  | S n => to_s 32 (of_le (if little then firstn 4 b else rev (firstn 4 b))) :: unraw n (skipn 4 b)
  end.
(** max_size() of basic_string<wchar_t> (libstdc++) *)
Definition max_size : Z := 2 ^ 61 - 1.
(** string.hpp:1699-1703 save, serializer.hpp:241-245 savePodVec, 64-68 saveRange *)
Definition save (s : list Z) : res (list Z) :=
  let! h := saveVariableInt little size_t (zlen s) in Ok (h ++ (if 0 <? zlen s then raw s else [])).
(** string.hpp:1693-1697 load, serializer.hpp:231-237 loadPodVec, 59-62 loadRange *)
Definition load (is : istream) : res (list Z * istream) :=
  let! (size, is) := loadVariableInt little size_t is in
  if max_size <? size then Exn else
  if 0 <? size then
    let! (b, is) := read ((size * 4) mod 2 ^ 64) is in Ok (unraw (Z.to_nat size) b, is)
  else Ok ([], is).
End Host.
