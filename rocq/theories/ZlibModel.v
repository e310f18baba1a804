(** Model of include/cybozu/zlib.hpp: ZlibCompressorT and ZlibDecompressorT.
    zlib's deflate and inflate are parameters (one function each on an abstract state); crc32 is the published algorithm.
    deflateInit/inflateInit are taken to succeed, memory never runs out.  What happens to a compressor after one of its
    writes to the output stream has thrown is in ZlibFailModel.v. *)
Require Import Verif.Common Verif.StreamModel Verif.EndianModel.

(** crc32() of zlib, RFC 1952 section 8, one byte: *)
Fixpoint crc_bits (n : nat) (c : Z) : Z :=
  match n with O => c | S n' => crc_bits n' (if Z.odd c then Z.lxor (Z.shiftr c 1) 3988292384 else Z.shiftr c 1) end.
Definition crc_byte (c b : Z) : Z := crc_bits 8 (Z.lxor c b).
Definition zcrc32 (crc : Z) (l : list Z) : Z := Z.lxor (fold_left crc_byte l (Z.lxor crc 4294967295)) 4294967295.

Inductive zret := ZOk | ZEnd | ZBuf | ZErr.
(** one call of deflate or inflate: return code, input bytes consumed, output bytes produced, new state *)
Definition zcall (S : Type) : Type := zret * nat * list Z * S.

Section Compressor.
Variable S : Type.
Variable d_init : S.
(** deflate(&z, Z_FINISH if the flag is set), next_in/avail_in = the list, avail_out = the number *)
Variable deflate : S -> list Z -> bool -> Z -> zcall S.
Variable little : bool.
Variable maxBufSize : Z.

Record comp := mk_c { c_os : list Z; c_crc : Z; c_total : Z; c_z : S; c_flushed : bool; c_gzip : bool }.
(** zlib.hpp:71 the fixed header *)
Definition gz_header : list Z := [31; 139; 8; 0; 0; 0; 0; 0; 0; 3].
(** zlib.hpp:57-78 constructor; write_os zlib.hpp:145-148 appends to the output stream *)
Definition c_new (os : list Z) (useGzip : bool) : comp :=
  mk_c (if useGzip then os ++ gz_header else os) (zcrc32 0 []) 0 d_init false useGzip.

(** zlib.hpp:107-117 *)
Fixpoint c_write_loop (fuel : nat) (inp : list Z) (z : S) (os : list Z) : res (S * list Z) :=
  match inp with
  | [] => Ok (z, os)
  | _ =>
    match fuel with
    | O => Fuel
    | Datatypes.S f =>
      let '(ret, k, out, z') := deflate z inp false maxBufSize in
      match ret with
      | ZOk => c_write_loop f (skipn k inp) z' (os ++ out)
      | ZEnd => Ok (z', os ++ out)
      | _ => Exn
      end
    end
  end.
(** zlib.hpp:97-118 write *)
Definition c_write (fuel : nat) (c : comp) (buf : list Z) : res comp :=
  if 2 ^ 31 <=? zlen buf then Exn else
  let crc := if c_gzip c then zcrc32 (c_crc c) buf else c_crc c in
  let total := if c_gzip c then (c_total c + zlen buf) mod 2 ^ 32 else c_total c in
  let! (z, os) := c_write_loop fuel buf (c_z c) (c_os c) in
  Ok (mk_c os crc total z (c_flushed c) (c_gzip c)).
(** zlib.hpp:126-136 *)
Fixpoint c_flush_loop (fuel : nat) (z : S) (os : list Z) : res (S * list Z) :=
  match fuel with
  | O => Fuel
  | Datatypes.S f =>
    let '(ret, k, out, z') := deflate z [] true maxBufSize in
    match ret with
    | ZOk => c_flush_loop f z' (os ++ out)
    | ZEnd => Ok (z', os ++ out)
    | _ => Exn
    end
  end.
(** zlib.hpp:119-143 flush; the destructor (79-91) calls it too *)
Definition c_flush (fuel : nat) (c : comp) : res comp :=
  if c_flushed c then Ok c else
  let! (z, os) := c_flush_loop fuel (c_z c) (c_os c) in
  if c_gzip c then
    let tail := repeat 0 8 in
    let! tail := Set32bitAsLE little tail (c_crc c) in
    let! tail := at_off 4 tail (fun q => Set32bitAsLE little q (c_total c)) in
    Ok (mk_c (os ++ tail) (c_crc c) (c_total c) z true (c_gzip c))
  else Ok (mk_c os (c_crc c) (c_total c) z true (c_gzip c)).
Fixpoint c_writes (fuel : nat) (c : comp) (bufs : list (list Z)) : res comp :=
  match bufs with [] => Ok c | b :: r => let! c' := c_write fuel c b in c_writes fuel c' r end.
(** a whole life: construct, write each buffer, flush or destroy *)
Definition compress (fuel : nat) (os : list Z) (useGzip : bool) (bufs : list (list Z)) : res (list Z) :=
  let! c := c_writes fuel (c_new os useGzip) bufs in
  let! c := c_flush fuel c in
  Ok (c_os c).
End Compressor.

Section Header.
Variable little : bool.
(** zlib.hpp:169-176 skipToZero; the fuel is the number of bytes left *)
Fixpoint skipToZero (fuel : nat) (is : istream) : res istream :=
  match fuel with
  | O => Fuel
  | S f => let! (b, is') := read 1 is in match b with [c] => if c =? 0 then Ok is' else skipToZero f is' | _ => UB end
  end.
(** zlib.hpp:177-183 skip *)
Fixpoint skip (size : nat) (is : istream) : res istream :=
  match size with O => Ok is | S n => let! (_, is') := read 1 is in skip n is' end.
Definition skipZ (is : istream) : res istream := skipToZero (S (length (is_data is))) is.
(** zlib.hpp:184-218 readGzipHeader: the stream after the header *)
Definition readGzipHeader (is : istream) : res istream :=
  let! (h, is) := read 10 is in
  let! flg := rd h 3 in
  let! h0 := rd h 0 in let! h1 := rd h 1 in let! h2 := rd h 2 in
  if (h0 =? 31) && (h1 =? 139) && (h2 =? 8) && (Z.land flg 224 =? 0) then
    let! is := (if negb (Z.land flg 4 =? 0) then
                  let! (xlen, is) := read 2 is in
                  let! size := Get16bitAsLE little xlen in
                  skip (Z.to_nat size) is
                else Ok is) in
    let! is := (if negb (Z.land flg 8 =? 0) then skipZ is else Ok is) in
    let! is := (if negb (Z.land flg 16 =? 0) then skipZ is else Ok is) in
    if negb (Z.land flg 2 =? 0) then skip 2 is else Ok is
  else Exn.
End Header.

Section Decompressor.
Variable T : Type.
Variable i_init : T.
(** inflate(&z, Z_NO_FLUSH) with next_in/avail_in = the list, avail_out = the number *)
Variable inflate : T -> list Z -> Z -> zcall T.
Variable little : bool.
Variable maxBufSize : Z.

(** d_in: the unread part of buf_ (next_in, avail_in) *)
Record decomp := mk_d { d_is : istream; d_z : T; d_in : list Z; d_ret : zret; d_gzip : bool; d_headRead : bool }.
(** zlib.hpp:227-249 *)
Definition d_new (is : istream) (useGzip : bool) : decomp := mk_d is i_init [] ZOk useGzip false.
Definition isEnd (r : zret) : bool := match r with ZEnd => true | _ => false end.
(** zlib.hpp:270-283 *)
Fixpoint d_loop (fuel : nat) (size : Z) (d : decomp) : res (list Z * decomp) :=
  match fuel with
  | O => Fuel
  | S f =>
    let '(inp, is) := match d_in d with [] => readSome maxBufSize (d_is d) | l => (l, d_is d) end in
    if isEnd (d_ret d) && (zlen inp =? 0) then Ok ([], mk_d is (d_z d) [] (d_ret d) (d_gzip d) (d_headRead d)) else
    let '(ret, k, out, z) := inflate (d_z d) inp size in
    let d' := mk_d is z (skipn k inp) ret (d_gzip d) (d_headRead d) in
    match ret with
    | ZEnd => Ok (out, d')
    | ZOk => if zlen out =? 0 then d_loop f size d' else Ok (out, d')
    | _ => Exn
    end
  end.
(** zlib.hpp:260-284 readSome.  The fuel is one more than the number of bytes not yet given to inflate. *)
Definition d_readSome (d : decomp) (size : Z) : res (list Z * decomp) :=
  if 2 ^ 31 <=? size then Exn else
  let! d := (if d_gzip d && negb (d_headRead d) then
               let! is := readGzipHeader little (d_is d) in
               Ok (mk_d is (d_z d) (d_in d) (d_ret d) (d_gzip d) true)
             else Ok d) in
  d_loop (2 + length (d_in d) + length (is_data (d_is d))) size d.
(** zlib.hpp:286-295 read *)
Fixpoint d_read_loop (fuel : nat) (d : decomp) (size : Z) : res (list Z * decomp) :=
  if size <=? 0 then Ok ([], d) else
  match fuel with
  | O => Fuel
  | S f =>
    let! (got, d') := d_readSome d size in
    if zlen got =? 0 then Exn else
    let! (more, d'') := d_read_loop f d' (size - zlen got) in
    Ok (got ++ more, d'')
  end.
Definition d_read (d : decomp) (size : Z) := d_read_loop (Z.to_nat size) d size.
End Decompressor.
