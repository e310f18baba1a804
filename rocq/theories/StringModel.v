(** Model of the class StringT (String) of include/cybozu/string.hpp: what the members do to the
    contents, with the strings kept in a store so that the same object may be passed twice.
    A String holds a std::basic_string<Char>; the functions [bs_...] are the members of
    std::basic_string as the C++ standard describes them (positions are size_t, the length never
    reaches max_size, allocation succeeds).  Chars are Z as in Utf8Model. *)
Require Import Verif.Common Verif.Utf8Model.

Definition npos : Z := 2 ^ 64 - 1.

(** ** std::basic_string.  None: std::out_of_range is thrown, nothing is changed *)
Definition bs_sub (t : list Z) (off n : Z) : option (list Z) :=
  if zlen t <? off then None
  else let rlen := Z.min n (zlen t - off) in Some (firstn (Z.to_nat rlen) (skipn (Z.to_nat off) t)).
Definition bs_append_sub (s t : list Z) (off n : Z) : option (list Z) :=
  match bs_sub t off n with None => None | Some u => Some (s ++ u) end.
Definition bs_replace (s : list Z) (off n : Z) (t : list Z) : option (list Z) :=
  if zlen s <? off then None
  else let xlen := Z.min n (zlen s - off) in
       Some (firstn (Z.to_nat off) s ++ t ++ skipn (Z.to_nat (off + xlen)) s).
Definition bs_insert (s : list Z) (off : Z) (t : list Z) : option (list Z) := bs_replace s off 0 t.
Definition bs_erase (s : list Z) (off n : Z) : option (list Z) := bs_replace s off n [].
Definition bs_resize (s : list Z) (n c : Z) : list Z :=
  if n <=? zlen s then firstn (Z.to_nat n) s else s ++ repeat c (Z.to_nat (n - zlen s)).
(** traits compare of the first [n] chars, then the lengths *)
Fixpoint traits_compare (n : nat) (a b : list Z) : Z :=
  match n, a, b with
  | S n, x :: a, y :: b => if x <? y then -1 else if y <? x then 1 else traits_compare n a b
  | _, _, _ => 0
  end.
Definition bs_compare (a b : list Z) : Z :=
  let r := traits_compare (Z.to_nat (Z.min (zlen a) (zlen b))) a b in
  if negb (r =? 0) then r else zlen a - zlen b.

(** ** the store *)
Definition store := list (list Z).
(** a member returns, throws (leaving a store behind), or is undefined *)
Inductive out := Done (s : store) | Threw (s : store) | Undef.

Definition get (s : store) (x : nat) : option (list Z) := nth_error s x.

(** string.hpp:555-563, 588-598, 1524-1542 append(begin, end) of char and of Char16: characters are pushed one by
    one, an exception leaves those pushed before it.  (contents, returned normally) *)
Fixpoint push8 (fuel : nat) (acc : list Z) (s : list Z) : res (list Z * bool) :=
  match s with
  | [] => Ok (acc, true)
  | _ => match fuel with
         | O => Fuel
         | S f => let! (c, s) := GetCharFromUtf8 s in
                  match c with Some c => push8 f (acc ++ [c]) s | None => Ok (acc, false) end
         end
  end.
Fixpoint push16 (fuel : nat) (acc : list Z) (s : list Z) : res (list Z * bool) :=
  match s with
  | [] => Ok (acc, true)
  | _ => match fuel with
         | O => Fuel
         | S f => let! (c, s) := GetCharFromUtf16 s in
                  match c with Some c => push16 f (acc ++ [c]) s | None => Ok (acc, false) end
         end
  end.

(** what is appended: the overloads of append, 504-610 *)
Inductive src :=
| FromStr (y : nat)                 (** append(const StringT&) 504-507 *)
| FromSub (y : nat) (off n : Z)     (** append(const StringT&, off, count) 515-518 *)
| FromChars (t : list Z)            (** append(const Char*, count), append(const Char* ) of another buffer 525-537 *)
| FromFill (n c : Z)                (** append(count, c) 544-547 *)
| From8 (t : list Z)                (** append(const char*, ...), append(const std::string&) 555-587, 607-610 *)
| From16 (t : list Z).              (** append(const Char16*, ...) 588-602 *)

Definition append (s : store) (x : nat) (f : src) : out :=
  match get s x with
  | None => Undef
  | Some a =>
    match f with
    | FromStr y => match get s y with Some b => Done (upd s x (a ++ b)) | None => Undef end
    | FromSub y off n =>
      match get s y with
      | Some b => match bs_append_sub a b off n with Some a' => Done (upd s x a') | None => Threw s end
      | None => Undef
      end
    | FromChars t => Done (upd s x (a ++ t))
    | FromFill n c => Done (upd s x (a ++ repeat c (Z.to_nat n)))
    | From8 t => match push8 (length t) a t with
                 | Ok (a', true) => Done (upd s x a') | Ok (a', false) => Threw (upd s x a') | _ => Undef end
    | From16 t => match push16 (length t) a t with
                 | Ok (a', true) => Done (upd s x a') | Ok (a', false) => Threw (upd s x a') | _ => Undef end
    end
  end.

(** string.hpp:833 clear *)
Definition clear (s : store) (x : nat) : store := upd s x [].

(** string.hpp:616-707, 433-471 assign and operator=: clear(); return append(...) *)
Definition assign (s : store) (x : nat) (f : src) : out := append (clear s x) x f.

(** the other members that change contents *)
Inductive op :=
| Append (x : nat) (f : src)                         (** append, operator+= , push_back *)
| Assign (x : nat) (f : src)                         (** assign, operator= *)
| Construct (f : src)                                (** the constructors: a new object *)
| InsertStr (x : nat) (off : Z) (y : nat)            (** insert(off, const StringT&) 714 *)
| InsertSub (x : nat) (off : Z) (y : nat) (yoff n : Z)   (** insert(off, rhs, rhsOff, count) 726 *)
| InsertFill (x : nat) (off n c : Z)                 (** insert(off, count, c) 758 *)
| Insert8 (x : nat) (off : Z) (t : list Z)           (** insert(here, begin, end) of char 790 *)
| Erase (x : nat) (off n : Z)                        (** erase(off, count) 806 *)
| ReplaceStr (x : nat) (off n : Z) (y : nat)         (** replace(off, n, rhs) 841 *)
| ReplaceSub (x : nat) (off n : Z) (y : nat) (yoff m : Z) (** replace(off, n, rhs, rhsOff, count) 854 *)
| ReplaceFill (x : nat) (off n m c : Z)              (** replace(off, n, count, c) 889 *)
| Resize (x : nat) (n c : Z)                         (** resize(newSize, c) 1062-1072 *)
| PopBack (x : nat)                                  (** pop_back 1502 *)
| Swap (x y : nat)                                   (** swap 1110, 1605 *)
| Substr (y : nat) (off n : Z)                       (** substr 1363: a new object *)
| Plus (x y : nat).                                  (** operator+ 1607: a new object *)

Definition new (s : store) (v : list Z) : out := Done (s ++ [v]).
Definition set (s : store) (x : nat) (v : option (list Z)) : out :=
  match v with Some v => Done (upd s x v) | None => Threw s end.

Definition step (s : store) (o : op) : out :=
  match o with
  | Append x f => append s x f
  | Assign x f => assign s x f
  | Construct f =>
    (* the members are appended to an object that is gone if that throws *)
    match append (s ++ [[]]) (length s) f with
    | Done s' => Done s' | Threw _ => Threw s | Undef => Undef end
  | InsertStr x off y =>
    match get s x, get s y with Some a, Some b => set s x (bs_insert a off b) | _, _ => Undef end
  | InsertSub x off y yoff n =>
    match get s x, get s y with
    | Some a, Some b =>
      match bs_sub b yoff n with None => Threw s | Some u => set s x (bs_insert a off u) end
    | _, _ => Undef
    end
  | InsertFill x off n c =>
    match get s x with Some a => set s x (bs_insert a off (repeat c (Z.to_nat n))) | None => Undef end
  | Insert8 x off t =>
    (* 790-794: StringT str(begin, end); then the insertion at an iterator of this string *)
    match get s x with
    | Some a =>
      match push8 (length t) [] t with
      | Ok (u, true) => if off <=? zlen a then set s x (bs_insert a off u) else Undef
      | Ok (_, false) => Threw s
      | _ => Undef
      end
    | None => Undef
    end
  | Erase x off n => match get s x with Some a => set s x (bs_erase a off n) | None => Undef end
  | ReplaceStr x off n y =>
    match get s x, get s y with Some a, Some b => set s x (bs_replace a off n b) | _, _ => Undef end
  | ReplaceSub x off n y yoff m =>
    match get s x, get s y with
    | Some a, Some b =>
      match bs_sub b yoff m with None => Threw s | Some u => set s x (bs_replace a off n u) end
    | _, _ => Undef
    end
  | ReplaceFill x off n m c =>
    match get s x with Some a => set s x (bs_replace a off n (repeat c (Z.to_nat m))) | None => Undef end
  | Resize x n c => match get s x with Some a => Done (upd s x (bs_resize a n c)) | None => Undef end
  | PopBack x =>
    (* str_.erase(str_.size() - 1, 1): size_t arithmetic *)
    match get s x with Some a => set s x (bs_erase a ((zlen a - 1) mod 2 ^ 64) 1) | None => Undef end
  | Swap x y =>
    match get s x, get s y with Some a, Some b => Done (upd (upd s x b) y a) | _, _ => Undef end
  | Substr y off n =>
    match get s y with
    | Some b => match bs_sub b off n with Some u => new s u | None => Threw s end
    | None => Undef
    end
  | Plus x y =>
    (* String(lhs) += rhs *)
    match get s x with
    | Some a =>
      match append (s ++ [a]) (length s) (FromStr y) with
      | Done s' => Done s' | Threw _ => Threw s | Undef => Undef end
    | None => Undef
    end
  end.

(** a program: exceptions are caught by the caller, who goes on *)
Fixpoint run (s : store) (l : list op) : option store :=
  match l with
  | [] => Some s
  | o :: l => match step s o with Done s' | Threw s' => run s' l | Undef => None end
  end.

(** ** string.hpp:525-528, 555-563 append(const Char *str, count) where str points into the string
    itself: [str, str + count) is read while push_back may move the contents ([grow] is the new
    capacity chosen then); a read after the move is UB.  [pos] and [endp] are positions in the old buffer *)
Fixpoint append_self (n : nat) (grow : Z -> Z) (cap : Z) (moved : bool) (a : list Z) (pos : Z) : res (list Z) :=
  match n with
  | O => Ok a
  | S n =>
    if moved then UB
    else match nth_error a (Z.to_nat pos) with
    | None => UB
    | Some c => if zlen a =? cap then append_self n grow (grow cap) true (a ++ [c]) (pos + 1)
                else append_self n grow cap moved (a ++ [c]) (pos + 1)
    end
  end.
Definition append_ptr_self (grow : Z -> Z) (cap : Z) (a : list Z) (off count : Z) : res (list Z) :=
  append_self (Z.to_nat count) grow cap false a off.

(** ** comparison (string.hpp:1371-1434, 1516-1521, 1569-1602) *)
(** the right-hand side: a String, or something a String is constructed from *)
Inductive cmp_src := CStr (b : list Z) | C8 (t : list Z) | C16 (t : list Z).
(** compare(rhs): a temporary String is made of rhs, which may throw *)
Definition compare (a : list Z) (f : cmp_src) : res Z :=
  match f with
  | CStr b => Ok (bs_compare a b)
  | C8 t => let! b := String_append8 [] t in Ok (bs_compare a b)
  | C16 t => let! b := String_append16 [] t in Ok (bs_compare a b)
  end.
Inductive rel := REq | RNe | RLe | RGe | RLt | RGt.
(** 1516-1521: String on the left *)
Definition rel_l (r : rel) (a : list Z) (f : cmp_src) : res bool :=
  let! d := compare a f in
  Ok match r with
     | REq => d =? 0 | RNe => negb (d =? 0) | RLe => d <=? 0 | RGe => 0 <=? d | RLt => d <? 0 | RGt => 0 <? d
     end.
(** 1569-1602: String on the right *)
Definition rel_r (r : rel) (f : cmp_src) (b : list Z) : res bool :=
  rel_l match r with REq => REq | RNe => RNe | RLe => RGe | RGe => RLe | RLt => RGt | RGt => RLt end b f.
