(** Model of include/cybozu/config.hpp. std::map is a list sorted by key (its iteration order: unsigned byte-wise
    lexicographic). Integer conversion of values (ResultType, getValueInteger) is cybozu::atoi, modelled in AtoiModel. *)
Require Import Verif.Common.

(** std::string operator< : char_traits<char> compares as unsigned char *)
Fixpoint str_lt (a b : list Z) : bool :=
  match a, b with
  | _, [] => false
  | [], _ :: _ => true
  | x :: a', y :: b' => if x <? y then true else if x =? y then str_lt a' b' else false
  end.
Definition str_eq (a b : list Z) : bool := if list_eq_dec Z.eq_dec a b then true else false.
(** std::map<std::string, V>::find / insert (an existing element stays) *)
Fixpoint mfind {V} (k : list Z) (m : list (list Z * V)) : option V :=
  match m with
  | [] => None
  | (k', v) :: r => if str_eq k k' then Some v else mfind k r
  end.
Fixpoint minsert {V} (k : list Z) (v : V) (m : list (list Z * V)) : list (list Z * V) :=
  match m with
  | [] => [(k, v)]
  | (k', v') :: r => if str_lt k k' then (k, v) :: m else if str_eq k k' then m else (k', v') :: minsert k v r
  end.
(** assignment through the pointer/reference to an element *)
Fixpoint mset {V} (k : list Z) (v : V) (m : list (list Z * V)) : list (list Z * V) :=
  match m with
  | [] => []
  | (k', v') :: r => if str_eq k k' then (k', v) :: r else (k', v') :: mset k v r
  end.

Definition section := list (list Z * list Z).
Definition config := list (list Z * section).

(** config.hpp:20-33 *)
Fixpoint isName (s : list Z) : bool :=
  match s with
  | [] => true
  | c :: r => if negb ((48 <=? c) && (c <=? 57)) && negb ((97 <=? c) && (c <=? 122)) && negb ((65 <=? c) && (c <=? 90)) && negb (c =? 95)
              then false else isName r
  end.
(** config.hpp:35-48; scanned from the end: the reversed string *)
Fixpoint trim_rev (r : list Z) : list Z :=
  match r with
  | c :: t => if (c =? 32) || (c =? 9) then trim_rev t else r
  | [] => []
  end.
Definition trimEndSpace (s : list Z) : list Z := rev (trim_rev (rev s)).
(** strchr(p, '=') on the c_str: stops at the first NUL *)
Fixpoint strchr_eq (s : list Z) : option nat :=
  match s with
  | [] => None
  | c :: r => if c =? 61 then Some O else if c =? 0 then None else option_map S (strchr_eq r)
  end.
(** config.hpp:50-65 *)
Definition cfg_split (line : list Z) : res (list Z * list Z) :=
  match strchr_eq line with
  | None => Exn
  | Some q =>
    let key := trimEndSpace (firstn q line) in
    if isName key then Ok (key, skipn (S q) line) else Exn
  end.
(** config.hpp:152-162 *)
Definition sec_append (s : section) (key value : list Z) : res section :=
  if isName key then
    match mfind key s with Some _ => Exn | None => Ok (minsert key value s) end
  else Exn.
(** config.hpp:169-173 *)
Definition queryValue (s : section) (key : list Z) : option (list Z) := mfind key s.
(** config.hpp:180-188, the string conversion of ResultType :128 *)
Definition getValue (s : section) (key : list Z) : res (list Z) := match queryValue s key with Some v => Ok v | None => Exn end.
(** config.hpp:220-228 *)
Definition getValueDefault (s : section) (key dflt : list Z) : list Z := match queryValue s key with Some v => v | None => dflt end.
(** config.hpp:233-240 *)
Definition sec_toString (s : section) : list Z := fold_left (fun ret kv => ret ++ fst kv ++ [61] ++ snd kv ++ [10]) s [].
(** config.hpp:265-273: the pointer returned is the name of the section in the map *)
Definition appendSection (c : config) (name : list Z) : res config :=
  if isName name then Ok (minsert name [] c) else Exn.
(** config.hpp:279-283 *)
Definition appendSection2 (c : config) (name : list Z) (s : section) : res config :=
  let! c := appendSection c name in Ok (mset name s c).
(** config.hpp:290-304 *)
Definition querySection (c : config) (name : list Z) : option section := mfind name c.
(** config.hpp:311-319 *)
Definition getSection (c : config) (name : list Z) : res section := match querySection c name with Some s => Ok s | None => Exn end.
(** std::getline(is, line): None when nothing is left *)
Fixpoint take_line (cur data : list Z) : list Z * list Z :=
  match data with
  | [] => (rev cur, [])
  | c :: r => if c =? 10 then (rev cur, r) else take_line (c :: cur) r
  end.
Definition getline (data : list Z) : option (list Z * list Z) := match data with [] => None | _ => Some (take_line [] data) end.
(** section->append(key, value) through the pointer [cur] into the map *)
Definition append_to (c : config) (cur key value : list Z) : res config :=
  match mfind cur c with
  | None => UB
  | Some s => let! s := sec_append s key value in Ok (mset cur s c)
  end.
(** config.hpp:343-367: one line; the new config and current section *)
Definition load_line (c : config) (cur : list Z) (line : list Z) : res (config * list Z) :=
  let n := zlen line in
  if n =? 0 then Ok (c, cur) else
  let! ch := rd line (n - 1) in
  if (ch =? 13) && (n =? 1) then Ok (c, cur) else
  let line := if ch =? 13 then firstn (Z.to_nat (n - 1)) line else line in
  let n := if ch =? 13 then n - 1 else n in
  let! ch := rd line 0 in
  if (ch =? 59) || (ch =? 35) then Ok (c, cur) else
  if ch =? 91 then
    let! la := rd line (n - 1) in
    if negb (la =? 93) then Exn else
    let name := firstn (Z.to_nat (n - 2)) (skipn 1 line) in
    let! c := appendSection c name in
    Ok (c, name)
  else
    let! (key, value) := cfg_split line in
    let! c := append_to c cur key value in
    Ok (c, cur).
(** config.hpp:342: while (std::getline(is, line)) *)
Fixpoint load_loop (fuel : nat) (c : config) (cur data : list Z) : res config :=
  match fuel with
  | O => Fuel
  | S f =>
    match getline data with
    | None => Ok c
    | Some (line, rest) => let! (c, cur) := load_line c cur line in load_loop f c cur rest
    end
  end.
(** config.hpp:336-369 *)
Definition load (c : config) (text : list Z) : res config :=
  let! c := appendSection c [] in
  load_loop (S (length text)) c [] text.
(** config.hpp:377-387 *)
Definition toString (c : config) : list Z :=
  fold_left (fun ret ns => (if match fst ns with [] => true | _ => false end then ret else ret ++ [91] ++ fst ns ++ [93; 10]) ++ sec_toString (snd ns)) c [].
