(** Model of the life of a ZlibCompressorT (include/cybozu/zlib.hpp:39-149) whose output stream may throw, and of what is left
    after a call has thrown.  The output stream is any type O with a function put: put o b = (true, o') when write(b) returned,
    (false, o') when it threw, o' being the stream afterwards.  deflate and crc32 are as in ZlibModel.v.
    The messages printed by the destructor are counted, their text is not modelled. *)
Require Import Verif.Common Verif.StreamModel Verif.EndianModel Verif.ZlibModel.

Section Fail.
Variable S : Type.
Variable d_init : S.
Variable deflate : S -> list Z -> bool -> Z -> zcall S.
Variable little : bool.
Variable maxBufSize : Z.
Variable O : Type.
Variable put : O -> list Z -> bool * O.

(** zlib.hpp:40-46 the members; f_os is the stream os_ refers to *)
Record fcomp := mk_f { f_os : O; f_crc : Z; f_total : Z; f_z : S; f_flushed : bool; f_gzip : bool }.
(** zlib.hpp:57-78 constructor after a successful deflateInit; false: writing the header threw *)
Definition f_new (o : O) (useGzip : bool) : bool * fcomp :=
  let '(b, o) := if useGzip then put o gz_header else (true, o) in
  (b, mk_f o (zcrc32 0 []) 0 d_init false useGzip).
(** zlib.hpp:107-117; None: out of fuel; false: threw *)
Fixpoint f_write_loop (fuel : nat) (inp : list Z) (z : S) (o : O) : option (bool * S * O) :=
  match inp with
  | [] => Some (true, z, o)
  | _ =>
    match fuel with
    | Datatypes.O => None
    | Datatypes.S f =>
      let '(ret, k, out, z) := deflate z inp false maxBufSize in
      match ret with
      | ZOk => let '(b, o) := put o out in if b then f_write_loop f (skipn k inp) z o else Some (false, z, o)
      | ZEnd => let '(b, o) := put o out in Some (b, z, o)
      | _ => Some (false, z, o)
      end
    end
  end.
(** zlib.hpp:97-118 write: crc_ and totalSize_ change before anything can throw, except for the size *)
Definition f_write (fuel : nat) (c : fcomp) (buf : list Z) : option (bool * fcomp) :=
  if 2 ^ 31 <=? zlen buf then Some (false, c) else
  let crc := if f_gzip c then zcrc32 (f_crc c) buf else f_crc c in
  let total := if f_gzip c then (f_total c + zlen buf) mod 2 ^ 32 else f_total c in
  match f_write_loop fuel buf (f_z c) (f_os c) with
  | Some (b, z, o) => Some (b, mk_f o crc total z (f_flushed c) (f_gzip c))
  | None => None
  end.
(** zlib.hpp:126-136 *)
Fixpoint f_flush_loop (fuel : nat) (z : S) (o : O) : option (bool * S * O) :=
  match fuel with
  | Datatypes.O => None
  | Datatypes.S f =>
    let '(ret, k, out, z) := deflate z [] true maxBufSize in
    match ret with
    | ZOk => let '(b, o) := put o out in if b then f_flush_loop f z o else Some (false, z, o)
    | ZEnd => let '(b, o) := put o out in Some (b, z, o)
    | _ => Some (false, z, o)
    end
  end.
(** zlib.hpp:137-142 the trailer *)
Definition f_tail (c : fcomp) : res (list Z) :=
  let tail := repeat 0 8 in
  let! tail := Set32bitAsLE little tail (f_crc c) in
  at_off 4 tail (fun q => Set32bitAsLE little q (f_total c)).
(** zlib.hpp:119-143 flush: isFlushCalled_ is set first *)
Definition f_flush (fuel : nat) (c : fcomp) : option (bool * fcomp) :=
  if f_flushed c then Some (true, c) else
  match f_flush_loop fuel (f_z c) (f_os c) with
  | None => None
  | Some (false, z, o) => Some (false, mk_f o (f_crc c) (f_total c) z true (f_gzip c))
  | Some (true, z, o) =>
    if f_gzip c then
      match f_tail c with
      | Ok tail => let '(b, o) := put o tail in Some (b, mk_f o (f_crc c) (f_total c) z true (f_gzip c))
      | _ => None
      end
    else Some (true, mk_f o (f_crc c) (f_total c) z true (f_gzip c))
  end.
(** zlib.hpp:79-91 destructor: whether it printed a message, and the stream it leaves *)
Definition f_destroy (fuel : nat) (c : fcomp) : option (bool * O) :=
  if f_flushed c then Some (false, f_os c) else
  match f_flush fuel c with
  | Some (b, c) => Some (negb b, f_os c)
  | None => None
  end.

(** a program using the object: calls whose exceptions it catches, then the end of the scope.
    A program that does not catch is one whose list ends with the call that threw. *)
Inductive fop := FWrite (buf : list Z) | FFlush.
Definition f_call (fuel : nat) (c : fcomp) (op : fop) : option (bool * fcomp) :=
  match op with FWrite b => f_write fuel c b | FFlush => f_flush fuel c end.
Fixpoint f_calls (fuel : nat) (c : fcomp) (ops : list fop) : option (list bool * fcomp) :=
  match ops with
  | [] => Some ([], c)
  | op :: r =>
    match f_call fuel c op with
    | None => None
    | Some (b, c) => match f_calls fuel c r with Some (bs, c) => Some (b :: bs, c) | None => None end
    end
  end.
(** l_built: the constructor returned; l_calls: which calls returned; l_msg: the destructor printed; l_os: the stream at the end;
    l_open: deflate states neither released by deflateEnd nor owned *)
Record life := mk_life { l_built : bool; l_calls : list bool; l_msg : bool; l_os : O; l_open : Z }.
(** zlib.hpp:57-91 from construction to destruction.  An object whose constructor throws is not destroyed;
    init: deflateInit / deflateInit2 succeeded. *)
Definition f_life (fuel : nat) (init : bool) (o : O) (useGzip : bool) (ops : list fop) : option life :=
  if negb init then Some (mk_life false [] false o 0) else
  let '(b, c) := f_new o useGzip in
  if negb b then Some (mk_life false [] false (f_os c) 1) else
  match f_calls fuel c ops with
  | None => None
  | Some (bs, c) =>
    match f_destroy fuel c with
    | None => None
    | Some (msg, o) => Some (mk_life true bs msg o 0)
    end
  end.
End Fail.
Arguments f_os {S O}. Arguments f_crc {S O}. Arguments f_total {S O}. Arguments f_z {S O}. Arguments f_flushed {S O}. Arguments f_gzip {S O}.
Arguments l_built {O}. Arguments l_calls {O}. Arguments l_msg {O}. Arguments l_os {O}. Arguments l_open {O}.

(** stream.hpp:142-167 MemoryOutputStream over n bytes, by what it holds *)
Definition mem_put (n : Z) (l b : list Z) : bool * list Z := if n - zlen l <? zlen b then (false, l) else (true, l ++ b).
(** stream.hpp:65-70 a std::ostream on a device with room for n bytes in all: the first write that does not fit leaves a part and
    sets the error state, after which every write fails *)
Record dev := mk_dev { dv_data : list Z; dv_bad : bool }.
Definition dev_put (n : Z) (d : dev) (b : list Z) : bool * dev :=
  if dv_bad d then (false, d)
  else if n - zlen (dv_data d) <? zlen b then (false, mk_dev (dv_data d ++ firstn (Z.to_nat (n - zlen (dv_data d))) b) true)
  else (true, mk_dev (dv_data d ++ b) false).
(** stream.hpp:188-205 StringOutputStream *)
Definition str_put (l b : list Z) : bool * list Z := (true, l ++ b).
