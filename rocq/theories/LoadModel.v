(** Model of load of serializer.hpp and read of stream.hpp over any user-made input stream: a state and its readSome, which may be undefined.
    (SerializerModel has them over streams that deliver their bytes in pieces and then nothing.)
    The streams and the structs of sample/serializer_smpl.cpp. *)
Require Import Verif.Common Verif.StreamModel Verif.EndianModel Verif.SerializerModel Verif.SerializerProps.
Require Verif.StrIoModel.

Section Loader.
Variable I : Type.
(** readSome(buf, size): the bytes stored in buf, their number is the result *)
Variable readSome : I -> Z -> res (list Z * I).
Definition reader (A : Type) : Type := I -> res (A * I).

(** stream.hpp:226-239 read(bool *pb, buf, size, is) *)
Fixpoint r_loop (fuel : nat) (size : Z) (s : I) : res (bool * list Z * I) :=
  if size <=? 0 then Ok (true, [], s) else
  match fuel with
  | O => Fuel
  | S f =>
    let! (got, s') := readSome s size in
    if zlen got =? 0 then Ok (false, [], s') else
    let! (b, more, s2) := r_loop f (size - zlen got) s' in
    Ok (b, got ++ more, s2)
  end.
(** stream.hpp:243-248 read(buf, size, is) *)
Definition r_read (size : Z) : reader (list Z) := fun s =>
  let! (b, got, s') := r_loop (Z.to_nat size) size s in if b then Ok (got, s') else Exn.

Variable little : bool.
Variable size_t : cint.
(** serializer.hpp:59-62, 71-76 *)
Definition r_pod (n : nat) : reader Z := fun s =>
  let! (b, s') := r_read (Z.of_nat n) s in Ok (of_le (if little then b else rev b), s').
(** serializer.hpp:163-205 loadVariableInt *)
Definition r_int (t : cint) : reader Z := fun s =>
  let! (h, s) := r_pod 1 s in
  if h =? 128 then let! (v, s) := r_pod 1 s in Ok (castT t v, s)
  else if h =? 129 then let! (v, s) := r_pod 2 s in Ok (castT t v, s)
  else if h =? 130 then let! (v, s) := r_pod 4 s in Ok (castT t v, s)
  else if h =? 131 then
    if c_size t =? 4 then Exn else let! (v, s) := r_pod 8 s in Ok (castT t v, s)
  else if h =? 132 then let! (v, s) := r_pod 1 s in Ok (castT t (to_s 8 v), s)
  else if h =? 133 then let! (v, s) := r_pod 2 s in Ok (castT t (to_s 16 v), s)
  else if h =? 134 then let! (v, s) := r_pod 4 s in Ok (castT t (to_s 32 v), s)
  else if h =? 135 then
    if c_size t =? 4 then Exn else let! (v, s) := r_pod 8 s in Ok (castT t (to_s 64 v), s)
  else Ok (castT t (to_s 8 h), s).
(** serializer.hpp:229-240, 247-250 std::string *)
Definition r_string : reader (list Z) := fun s =>
  let! (n, s) := r_int size_t s in if 0 <? n then r_read n s else Ok ([], s).
(** string.hpp:1693-1697 load of cybozu::String, serializer.hpp:231-237 loadPodVec *)
Definition r_str32 : reader (list Z) := fun s =>
  let! (size, s) := r_int StrIoModel.size_t s in
  if StrIoModel.max_size <? size then Exn else
  if 0 <? size then let! (b, s) := r_read ((size * 4) mod 2 ^ 64) s in Ok (StrIoModel.unraw little (Z.to_nat size) b, s)
  else Ok ([], s).
(** serializer.hpp:267-280 vector, list (ins appends), 292-303 set, 315-328 map: load an element, put it into the container *)
Fixpoint r_times {A} (ld : reader A) (ins : A -> list A -> list A) (n : nat) (acc : list A) : reader (list A) := fun s =>
  match n with
  | O => Ok (acc, s)
  | S n' => let! (x, s) := ld s in r_times ld ins n' (ins x acc) s
  end.
Definition r_into {A} (ld : reader A) (ins : A -> list A -> list A) (old : list A) : reader (list A) := fun s =>
  let! (n, s) := r_int size_t s in r_times ld ins (Z.to_nat n) old s.
Definition back {A} (x : A) (l : list A) : list A := l ++ [x].
Definition r_pair {A B} (la : reader A) (lb : reader B) : reader (A * B) := fun s =>
  let! (a, s) := la s in let! (b, s) := lb s in Ok ((a, b), s).
(** load into a default constructed object of any serializable type *)
Fixpoint r_obj (s : sty) : reader (den s) :=
  match s with
  | SInt t => r_int t
  | SPod n => r_pod n
  | SStr => r_string
  | SSeq e => r_into (r_obj e) back []
  | SSet e => r_into (r_obj e) (insert_by (ltb (cmp e))) []
  | SMap k v => r_into (r_pair (r_obj k) (r_obj v)) (insert_by (fun p q => ltb (cmp k) (fst p) (fst q))) []
  end.
Definition int_ : sty := SInt (mk_cint 4 true).
(** sample/serializer_smpl.cpp:30-37, 55-59 Data::load and Data2::load: map<string, double>, set<int>, vector<float>, vector<String>; then the int *)
Definition r_data2 : reader (list (list Z * Z) * list Z * list Z * list (list Z) * Z) :=
  r_pair (r_pair (r_pair (r_pair (r_obj (SMap SStr (SPod 8))) (r_obj (SSet int_))) (r_obj (SSeq (SPod 4)))) (r_into r_str32 back [])) (r_obj int_).
End Loader.

(** string.hpp:1693-1703 cybozu::String as a serializable type *)
Definition codec_str32 (little : bool) : codec (list Z) := mk_codec [] (StrIoModel.save little) (fun _ is => StrIoModel.load little is).
(** sample/serializer_smpl.cpp:38-45, 60-65 Data::save and Data2::save *)
Definition data2 (little : bool) (size_t : cint) : codec (list (list Z * Z) * list Z * list Z * list (list Z) * Z) :=
  codec_pair (codec_pair (codec_pair (codec_pair (codec_of little size_t (SMap SStr (SPod 8))) (codec_of little size_t (SSet int_)))
    (codec_of little size_t (SSeq (SPod 4)))) (codec_seq little size_t (codec_str32 little))) (codec_of little size_t int_).

(** sample/serializer_smpl.cpp:73-85, 102-114 VecInputStream, VecInputStream2: &data[pos] is undefined for pos == data.size() *)
Record vec_in := mk_vi { vi_data : list Z; vi_pos : Z }.
Definition vi_readSome (s : vec_in) (size : Z) : res (list Z * vec_in) :=
  let readSize := Z.min size (sub64 (zlen (vi_data s)) (vi_pos s)) in
  if zlen (vi_data s) <=? vi_pos s then UB
  else if zlen (vi_data s) <? vi_pos s + readSize then UB
  else Ok (firstn (Z.to_nat readSize) (skipn (Z.to_nat (vi_pos s)) (vi_data s)), mk_vi (vi_data s) (vi_pos s + readSize)).
(** sample/serializer_smpl.cpp:91-97 VecOutputStream::write *)
Definition vo_write (data buf : list Z) : list Z := data ++ buf.
(** stream.hpp:40-48 readSome on a std::istream: the bytes left, eofbit or failbit.  read() on a stream that is not good gives nothing *)
Record std_in := mk_sti { st_left : list Z; st_bad : bool }.
Definition st_readSome (s : std_in) (size : Z) : res (list Z * std_in) :=
  let size := if 0x7fffffff <? size then 0x7fffffff else size in
  let n := if st_bad s then 0 else Z.min size (zlen (st_left s)) in
  let bad := st_bad s || (n <? size) in
  Ok (firstn (Z.to_nat n) (st_left s), mk_sti (skipn (Z.to_nat n) (st_left s)) (if (size =? 1) && (n =? 0) then false else bad)).
