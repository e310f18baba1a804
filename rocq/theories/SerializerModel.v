(** Model of include/cybozu/serializer.hpp.
    An output stream is the list of bytes written to it, so "save" returns the bytes it appends.
    An input stream is StreamModel.istream (arbitrary short reads). *)
Require Import Verif.Common Verif.StreamModel Verif.EndianModel.

Section Host.
Variable little : bool.   (* byte order of the machine; savePod/loadPod copy the object representation *)

(** serializer.hpp:22-26, 78-84: savePod of an n-byte object whose unsigned value is x *)
Definition savePod (n : nat) (x : Z) : list Z := if little then to_le n x else rev (to_le n x).
(** serializer.hpp:59-62, 71-76 *)
Definition loadPod (n : nat) (is : istream) : res (Z * istream) :=
  let! (b, is') := read (Z.of_nat n) is in
  Ok (of_le (if little then b else rev b), is').

(** integer casts *)
Definition to_u (bits : Z) (x : Z) : Z := x mod 2 ^ bits.
Definition to_s (bits : Z) (x : Z) : Z := (x + 2 ^ (bits - 1)) mod 2 ^ bits - 2 ^ (bits - 1).

(** the integral template argument T: sizeof(T) in bytes and signedness *)
Record cint := mk_cint { c_size : Z; c_signed : bool }.
Definition castT (t : cint) (x : Z) : Z :=
  if c_signed t then to_s (8 * c_size t) x else to_u (8 * c_size t) x.

(** serializer.hpp:120-124 isRecoverable<S>(x); S is given by its cast *)
Definition isRecoverable (t : cint) (toS : Z -> Z) (x : Z) : bool := castT t (toS x) =? x.

(** serializer.hpp:138-161.  A failing assert (line 157) is UB. *)
Definition saveVariableInt (t : cint) (x : Z) : res (list Z) :=
  if isRecoverable t (to_s 8) x then
    let u8 := to_u 8 x in
    Ok ((if to_u 32 (u8 - 128) <=? 7 then savePod 1 132 else []) ++ savePod 1 u8)
  else if isRecoverable t (to_u 8) x then
    Ok (savePod 1 128 ++ savePod 1 (to_u 8 x))
  else if isRecoverable t (to_u 16) x || isRecoverable t (to_s 16) x then
    Ok (savePod 1 (if isRecoverable t (to_u 16) x then 129 else 133) ++ savePod 2 (to_u 16 x))
  else if isRecoverable t (to_u 32) x || isRecoverable t (to_s 32) x then
    Ok (savePod 1 (if isRecoverable t (to_u 32) x then 130 else 134) ++ savePod 4 (to_u 32 x))
  else if c_size t =? 8 then
    Ok (savePod 1 131 ++ savePod 8 (to_u 64 x))
  else UB.

(** serializer.hpp:163-205 *)
Definition loadVariableInt (t : cint) (is : istream) : res (Z * istream) :=
  let! (h, is) := loadPod 1 is in
  if h =? 128 then let! (v, is) := loadPod 1 is in Ok (castT t v, is)
  else if h =? 129 then let! (v, is) := loadPod 2 is in Ok (castT t v, is)
  else if h =? 130 then let! (v, is) := loadPod 4 is in Ok (castT t v, is)
  else if h =? 131 then
    if c_size t =? 4 then Exn else let! (v, is) := loadPod 8 is in Ok (castT t v, is)
  else if h =? 132 then let! (v, is) := loadPod 1 is in Ok (castT t (to_s 8 v), is)
  else if h =? 133 then let! (v, is) := loadPod 2 is in Ok (castT t (to_s 16 v), is)
  else if h =? 134 then let! (v, is) := loadPod 4 is in Ok (castT t (to_s 32 v), is)
  else if h =? 135 then
    if c_size t =? 4 then Exn else let! (v, is) := loadPod 8 is in Ok (castT t (to_s 64 v), is)
  else Ok (castT t (to_s 8 h), is).

(** size_t: unsigned long on LP64 / unsigned int on ILP32 *)
Variable size_t : cint.

(** A serializable type: default value T(), save, and load into an existing object. *)
Record codec (A : Type) := mk_codec {
  c_default : A;
  c_save : A -> res (list Z);
  c_load : A -> istream -> res (A * istream)
}.
Arguments c_default {A}. Arguments c_save {A}. Arguments c_load {A}.

(** serializer.hpp:98-110 fixed size scalars of n bytes, as their unsigned representation *)
Definition codec_pod (n : nat) : codec Z :=
  mk_codec Z 0 (fun x => Ok (savePod n x)) (fun _ is => loadPod n is).
(** serializer.hpp:209-220 *)
Definition codec_int (t : cint) : codec Z :=
  mk_codec Z 0 (saveVariableInt t) (fun _ is => loadVariableInt t is).

(** serializer.hpp:229-255 loadPodVec/savePodVec for std::string (one-byte elements): resize then read *)
Definition codec_string : codec (list Z) :=
  mk_codec (list Z) []
    (fun s => let! h := saveVariableInt size_t (zlen s) in Ok (h ++ s))
    (fun _ is => let! (n, is) := loadVariableInt size_t is in
                 if 0 <? n then read n is else Ok ([], is)).

(** strlen of a C string in memory; without a NUL it runs off the readable bytes: UB *)
Fixpoint strlen (mem : list Z) : res Z :=
  match mem with [] => UB | c :: r => if c =? 0 then Ok 0 else let! n := strlen r in Ok (1 + n) end.
(** serializer.hpp:257-263 save of a const char * *)
Definition save_cstr (mem : list Z) : res (list Z) :=
  let! len := strlen mem in
  let! h := saveVariableInt size_t len in
  Ok (if 0 <? len then h ++ firstn (Z.to_nat len) mem else h).

(** saving the elements one after the other *)
Fixpoint save_all {A} (c : A -> res (list Z)) (l : list A) : res (list Z) :=
  match l with
  | [] => Ok []
  | x :: r => let! a := c x in let! b := save_all c r in Ok (a ++ b)
  end.

(** serializer.hpp:267-289 vector, list: clear, then size times push_back(T()) and load into back() *)
Fixpoint load_seq {A} (c : codec A) (n : nat) (acc : list A) (is : istream) : res (list A * istream) :=
  match n with
  | O => Ok (acc, is)
  | S n' => let! (x, is) := c_load c (c_default c) is in load_seq c n' (acc ++ [x]) is
  end.
Definition codec_seq {A} (c : codec A) : codec (list A) :=
  mk_codec (list A) []
    (fun l => let! h := saveVariableInt size_t (zlen l) in let! b := save_all (c_save c) l in Ok (h ++ b))
    (fun _ is => let! (n, is) := loadVariableInt size_t is in load_seq c (Z.to_nat n) [] is).

(** std::set / std::map as a list sorted by a strict comparison; insert keeps an equal old element *)
Fixpoint insert_by {A} (ltb : A -> A -> bool) (x : A) (l : list A) : list A :=
  match l with
  | [] => [x]
  | y :: r => if ltb x y then x :: l else if ltb y x then y :: insert_by ltb x r else l
  end.

(** serializer.hpp:292-312 set (the object is not cleared) *)
Fixpoint load_set {A} (c : codec A) (ins : A -> list A -> list A) (n : nat) (acc : list A) (is : istream)
  : res (list A * istream) :=
  match n with
  | O => Ok (acc, is)
  | S n' => let! (x, is) := c_load c (c_default c) is in load_set c ins n' (ins x acc) is
  end.
Definition codec_set_with {A} (c : codec A) (ins : A -> list A -> list A) : codec (list A) :=
  mk_codec (list A) []
    (fun l => let! h := saveVariableInt size_t (zlen l) in let! b := save_all (c_save c) l in Ok (h ++ b))
    (fun old is => let! (n, is) := loadVariableInt size_t is in load_set c ins (Z.to_nat n) old is).
Definition codec_set {A} (ltb : A -> A -> bool) (c : codec A) : codec (list A) :=
  codec_set_with c (insert_by ltb).

(** serializer.hpp:315-338 map: as a set of pairs compared by key; vt is default constructed *)
Definition codec_pair {A B} (ca : codec A) (cb : codec B) : codec (A * B) :=
  mk_codec (A * B) (c_default ca, c_default cb)
    (fun p => let! a := c_save ca (fst p) in let! b := c_save cb (snd p) in Ok (a ++ b))
    (fun p is => let! (a, is) := c_load ca (fst p) is in let! (b, is) := c_load cb (snd p) is in Ok ((a, b), is)).
Definition codec_map {K V} (ltb : K -> K -> bool) (ck : codec K) (cv : codec V) : codec (list (K * V)) :=
  codec_set (fun p q => ltb (fst p) (fst q)) (codec_pair ck cv).

(** serializer.hpp:341-366 unordered_map: iteration order is arbitrary; [place] is where the table
    puts a new element *)
Definition insert_at {A} (k : nat) (x : A) (l : list A) : list A := firstn k l ++ x :: skipn k l.
Definition insert_unordered {K V} (eqb : K -> K -> bool) (place : K * V -> list (K * V) -> nat)
    (x : K * V) (l : list (K * V)) : list (K * V) :=
  if existsb (fun y => eqb (fst x) (fst y)) l then l else insert_at (place x l) x l.
Definition codec_umap {K V} (eqb : K -> K -> bool) (place : K * V -> list (K * V) -> nat)
    (ck : codec K) (cv : codec V) : codec (list (K * V)) :=
  codec_set_with (codec_pair ck cv) (insert_unordered eqb place).

End Host.
Arguments c_default {A}. Arguments c_save {A}. Arguments c_load {A}. Arguments mk_codec {A}.
