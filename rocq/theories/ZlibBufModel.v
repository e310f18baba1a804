(** Model of ZlibCompress and ZlibUncompress of include/cybozu/zlib.hpp and of sample/zlib_smpl.cpp.
    zlib is a parameter: [deflate level data] is the stream it makes of the data if there is room, [inflate s] the data of the stream s,
    None if s is no complete stream.  [mem]: memory suffices.  uLong has [bits] bits (64 on Linux, 32 on Windows). *)
Require Import Verif.Common Verif.CsvFileModel.

Definition Z_OK := 0. Definition Z_STREAM_ERROR := -2. Definition Z_DATA_ERROR := -3. Definition Z_MEM_ERROR := -4. Definition Z_BUF_ERROR := -5.
Definition Z_DEFAULT_COMPRESSION := -1.

Section Zlib.
Variables (bits : Z) (deflate : Z -> list Z -> list Z) (inflate : list Z -> option (list Z)) (mem : bool).

(** bytes written to the front of a buffer; behind its end it is UB *)
Definition put (out d : list Z) : res (list Z) := if zlen d <=? zlen out then Ok (d ++ skipn (length d) out) else UB.
(** the first n bytes at a pointer to [s] *)
Definition take (s : list Z) (n : Z) : res (list Z) := if n <=? zlen s then Ok (firstn (Z.to_nat n) s) else UB.
(** zlib's compress2(dest, destLen, source, sourceLen, level): return value, bytes written, *destLen *)
Definition compress2 (destLen : Z) (source : list Z) (level : Z) : Z * list Z * Z :=
  if (level <? -1) || (9 <? level) then (Z_STREAM_ERROR, [], destLen)
  else if negb mem then (Z_MEM_ERROR, [], destLen)
  else let d := deflate level source in
    if zlen d <=? destLen then (Z_OK, d, zlen d) else (Z_BUF_ERROR, firstn (Z.to_nat destLen) d, destLen).
(** zlib's uncompress(dest, destLen, source, sourceLen).  What is written of a bad stream is not modelled *)
Definition uncompress (destLen : Z) (source : list Z) : Z * list Z * Z :=
  if negb mem then (Z_MEM_ERROR, [], destLen)
  else match inflate source with
    | Some d => if zlen d <=? destLen then (Z_OK, d, zlen d) else (Z_BUF_ERROR, firstn (Z.to_nat destLen) d, destLen)
    | None => (Z_DATA_ERROR, [], destLen)
    end.
(** zlib.hpp:302-313; the result and the buffer behind out *)
Definition ZlibCompress (out : list Z) (maxOutSize : Z) (inp : list Z) (inSize level : Z) : res (res Z * list Z) :=
  let! src := take inp (inSize mod 2 ^ bits) in
  let '(ret, d, outSize) := compress2 (maxOutSize mod 2 ^ bits) src level in
  let! out := put out d in
  Ok (if ret =? Z_BUF_ERROR then Ok 0 else if ret =? Z_OK then Ok outSize else Exn, out).
(** zlib.hpp:315-323 *)
Definition ZlibUncompress (out : list Z) (maxOutSize : Z) (inp : list Z) (inSize : Z) : res (res Z * list Z) :=
  let! src := take inp (inSize mod 2 ^ bits) in
  let '(ret, d, outSize) := uncompress (maxOutSize mod 2 ^ bits) src in
  let! out := put out d in
  Ok (if ret =? Z_OK then Ok outSize else Exn, out).

(** sample/zlib_smpl.cpp:21-41 main after the options; status and files.  [can]: the output file can be opened; that it is not looked at
    is as in the code.  Mmap throws if the file is missing; an empty file is not mapped and has size 0 (mmap.hpp:91-124); the parsing of the options is not modelled here *)
Definition zlib_smpl (doUncomp : bool) (fs : files) (can : list Z -> bool) (inFile outFile : list Z) : res (Z * files) :=
  match fs inFile with
  | None => Ok (1, fs)
  | Some f =>
    let max := if doUncomp then zlen f * 10 else zlen f in
    let out := repeat 0 (Z.to_nat max) in
    let! (r, out) := (if doUncomp then ZlibUncompress out max f (zlen f) else ZlibCompress out max f (zlen f) Z_DEFAULT_COMPRESSION) in
    match r with
    | Ok size =>
      if negb doUncomp && (size =? 0) then Ok (1, fs)
      else Ok (0, if can outFile then store fs outFile (firstn (Z.to_nat size) out) else fs)
    | _ => Ok (1, fs)
    end
  end.
End Zlib.
