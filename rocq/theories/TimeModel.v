(** Model of include/cybozu/time.hpp. A pointer into the text is its offset from begin; [mem] are the bytes readable from begin on
    (a std::string or C string of text s gives s ++ [0]). The C library's timegm, gmtime_r and strftime are not part of the
    repository; they are modelled by what POSIX says about them. time_t is 64 bits. The Windows branches are not modelled. *)
Require Import Verif.Common Verif.AtoiModel Verif.ItoaModel Verif.Text.
From Coq Require String.

(** time.hpp:232-241 *)
Definition getNum (mem : list Z) (off : nat) (len lo hi : Z) : res (bool * Z) :=
  let! (b, ret) := atoi ty_i32 true (skipn off mem) len in
  if (lo <=? ret) && (ret <=? hi) then Ok (b, ret) else Ok (false, 0).
(** time.hpp:251-253 *)
Definition monthTbl : list (list Z) :=
  [str "Jan"; str "Feb"; str "Mar"; str "Apr"; str "May"; str "Jun"; str "Jul"; str "Aug"; str "Sep"; str "Oct"; str "Nov"; str "Dec"].
(** time.hpp:255-260 *)
Fixpoint month_loop (tbl : list (list Z)) (i : Z) (p : list Z) : res (option Z) :=
  match tbl with
  | [] => Ok None
  | m :: r => let! b := memcmp_eq m p in if b then Ok (Some i) else month_loop r (i + 1) p
  end.
(** time.hpp:249-268: (month index, next pointer) *)
Definition getMonth (mem : list Z) (off : nat) : res (option (Z * nat)) :=
  let! r := month_loop monthTbl 0 (skipn off mem) in
  match r with
  | Some i => Ok (Some (i, (off + 3)%nat))
  | None => let! (b, v) := getNum mem off 2 1 12 in Ok (if b then Some (v - 1, (off + 2)%nat) else None)
  end.

(** C library *)
Definition isleap (y : Z) : bool := (y mod 4 =? 0) && (negb (y mod 100 =? 0) || (y mod 400 =? 0)).
(** days before month mon (0..11) in a year *)
Definition mon_yday (leap : bool) (mon : Z) : Z :=
  nth (Z.to_nat mon) [0; 31; 59; 90; 120; 151; 181; 212; 243; 273; 304; 334; 365] 0 + (if leap && (1 <? mon) then 1 else 0).
(** timegm: POSIX "Seconds Since the Epoch", with tm_yday computed from tm_mon and tm_mday; an mday beyond the month's end runs into the next month *)
Definition timegm (tm_year tm_mon tm_mday tm_hour tm_min tm_sec : Z) : Z :=
  let tm_yday := mon_yday (isleap (tm_year + 1900)) tm_mon + tm_mday - 1 in
  tm_sec + tm_min * 60 + tm_hour * 3600 + tm_yday * 86400 + (tm_year - 70) * 31536000 + ((tm_year - 69) / 4) * 86400
    - ((tm_year - 1) / 100) * 86400 + ((tm_year + 299) / 400) * 86400.
(** gmtime_r for times from 1970 on: find the year, then the month *)
Fixpoint find_year (fuel : nat) (y days : Z) : Z * Z :=
  match fuel with
  | O => (y, days)
  | S f => let n := if isleap y then 366 else 365 in if days <? n then (y, days) else find_year f (y + 1) (days - n)
  end.
Fixpoint find_month (k : nat) (leap : bool) (days : Z) : Z :=
  match k with
  | O => 0
  | S k' => if mon_yday leap (Z.of_nat k) <=? days then Z.of_nat k else find_month k' leap days
  end.
Record tm := mk_tm { tm_year : Z; tm_mon : Z; tm_mday : Z; tm_hour : Z; tm_min : Z; tm_sec : Z }.
Definition gmtime (t : Z) : tm :=
  let days := t / 86400 in let rem := t mod 86400 in
  let (y, yday) := find_year (Z.to_nat days) 1970 days in
  let mon := find_month 11 (isleap y) yday in
  mk_tm (y - 1900) mon (yday - mon_yday (isleap y) mon + 1) (rem / 3600) (rem mod 3600 / 60) (rem mod 60).
(** strftime: %m %d %H %M %S are two digits; %Y of the years 1000..9999 is four digits, other years are not modelled (Exn) *)
Definition two (x : Z) : list Z := [48 + x / 10; 48 + x mod 10].
Definition year4 (y : Z) : res (list Z) :=
  if (1000 <=? y) && (y <=? 9999) then Ok (two (y / 100) ++ two (y mod 100)) else Exn.

(** time.hpp:158-163 the failure exit: std::string(begin, 24) reads 24 bytes *)
Definition err (pb : bool) (mem : list Z) (st : Z * Z) : res (bool * (Z * Z)) :=
  if pb then Ok (false, st) else if zlen mem <? 24 then UB else Exn.
(** time.hpp:135-156: the text behind the seconds; [time] is the result of timegm *)
Definition parse_tail (pb : bool) (mem : list Z) (p : nat) (len : Z) (st : Z * Z) (time : Z) : res (bool * (Z * Z)) :=
  let zp := Z.of_nat p in
  if zp =? len then Ok (true, (time, 0)) else
  let! isZ := (if zp + 1 =? len then let! c := rd mem zp in Ok (c =? 90) else Ok false) in
  if isZ then Ok (true, (time, 0)) else
  let! c := rd mem zp in
  let! isMs := (if c =? 46 then
      if zp + 4 =? len then Ok true else if zp + 5 =? len then let! c := rd mem (zp + 4) in Ok (c =? 90) else Ok false
    else Ok false) in
  if isMs then
    let! (b, ms) := getNum mem (S p) 3 0 999 in
    if negb b then err pb mem (fst st, ms) else Ok (true, (time, ms))
  else err pb mem st.
(** time.hpp:96-164; [len] = end - begin, [st] = (time_, msec_); the bool is *pb *)
Definition fromString (pb : bool) (mem : list Z) (len : Z) (st : Z * Z) : res (bool * (Z * Z)) :=
  if negb (19 <=? len) then err pb mem st else
  let! (b, y) := getNum mem 0 4 1970 3000 in
  if negb b then err pb mem st else
  let p := 4%nat in
  let! sep := rd mem (Z.of_nat p) in
  let p := S p in
  if negb (sep =? 45) && negb (sep =? 47) then err pb mem st else
  let! mo := getMonth mem p in
  match mo with
  | None => err pb mem st
  | Some (mon, p) =>
    let! c := rd mem (Z.of_nat p) in
    let p := S p in
    if negb (c =? sep) then err pb mem st else
    let! (b, mday) := getNum mem p 2 1 31 in
    if negb b then err pb mem st else
    let p := (p + 2)%nat in
    let! c := rd mem (Z.of_nat p) in
    if negb (c =? 32) && negb (c =? 84) then err pb mem st else
    let p := S p in
    let! (b, hour) := getNum mem p 2 0 23 in
    if negb b then err pb mem st else
    let p := (p + 2)%nat in
    let! c := rd mem (Z.of_nat p) in
    let p := S p in
    if negb (c =? 58) then err pb mem st else
    let! (b, min) := getNum mem p 2 0 59 in
    if negb b then err pb mem st else
    let p := (p + 2)%nat in
    let! c := rd mem (Z.of_nat p) in
    let p := S p in
    if negb (c =? 58) then err pb mem st else
    let! (b, sec) := getNum mem p 2 0 59 in
    if negb b then err pb mem st else
    let p := (p + 2)%nat in
    parse_tail pb mem p len st (timegm (y - 1900) mon mday hour min sec)
  end.
(** time.hpp:93 *)
Definition fromString_str (pb : bool) (s : list Z) (st : Z * Z) : res (bool * (Z * Z)) := fromString pb (s ++ [0]) (zlen s) st.

(** time.hpp:175-210 with the default formats "%Y-%m-%d %H:%M:%S." and "%Y-%m-%d %H:%M:%S" *)
Definition toString (st : Z * Z) (appendMsec : bool) : res (list Z) :=
  let t := gmtime (fst st) in
  let! y := year4 (tm_year t + 1900) in
  let buf := y ++ [45] ++ two (tm_mon t + 1) ++ [45] ++ two (tm_mday t) ++ [32] ++ two (tm_hour t) ++ [58] ++ two (tm_min t) ++ [58] ++ two (tm_sec t)
             ++ (if appendMsec then [46] else []) in
  if appendMsec then let! m := itoaWithZero true (repeat 0 40) (snd st) 3 48 in Ok (buf ++ m) else Ok buf.

(** time.hpp:25 *)
Definition epochBias : Z := 116444736000000000.
Definition in_i64 (x : Z) : bool := (- 2 ^ 63 <=? x) && (x <? 2 ^ 63).
(** time.hpp:52-57; the arguments are converted to uint32_t *)
Definition setByFILETIME (low high : Z) : Z * Z :=
  let low := low mod 2 ^ 32 in let high := high mod 2 ^ 32 in
  let fileTime := (((high * 2 ^ 32 + low) - epochBias) mod 2 ^ 64) / 10000 in
  (fileTime / 1000, fileTime mod 1000).
(** time.hpp:62-67; dword has [w] bits; time_t arithmetic that overflows is UB *)
Definition getFILETIME (w : Z) (st : Z * Z) : res (Z * Z) :=
  let (time, msec) := st in
  if negb (in_i64 (time * 1000)) then UB else
  if negb (in_i64 (time * 1000 + msec)) then UB else
  if negb (in_i64 ((time * 1000 + msec) * 10000)) then UB else
  let fileTime := ((time * 1000 + msec) * 10000 + epochBias) mod 2 ^ 64 in
  Ok (fileTime mod 2 ^ w, (fileTime / 2 ^ 32) mod 2 ^ w).
(** time.hpp:80, 83 *)
Definition time_lt (a b : Z * Z) : bool := (fst a <? fst b) || ((fst a =? fst b) && (snd a <? snd b)).
Definition time_eq (a b : Z * Z) : bool := (fst a =? fst b) && (snd a =? snd b).
