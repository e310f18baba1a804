(** Model of include/cybozu/ssl.hpp: ClientSocket.
    The answers of the TLS library are a schedule: each SSL_read / SSL_write transfers some bytes or reports an
    error code of SSL_get_error.  A schedule that runs out means that the call has not returned yet: outcome Fuel. *)
Require Import Verif.Common Verif.TransferModel.

(** SGet n: a positive result; SErr c: a result <= 0 with SSL_get_error = c *)
Inductive sres := SGet (n : Z) | SErr (code : Z).
(** SSL_ERROR_WANT_READ, SSL_ERROR_WANT_WRITE, SSL_ERROR_ZERO_RETURN of openssl/ssl.h *)
Definition WANT_READ : Z := 2.
Definition WANT_WRITE : Z := 3.
Definition ZERO_RETURN : Z := 6.

Record sstate := mk_ss { ss_buf : list Z; ss_src : list Z; ss_sched : list sres }.
(** ssl.hpp:142-153 readSome(buf + p, bufSize); src: the bytes of the connection still to come.
    SSL_read with a positive result stores between 1 and size bytes of them (and blocks if there is none). *)
Fixpoint ssl_readSome (sched : list sres) (buf src : list Z) (p bufSize : Z) : res Z * sstate :=
  let size := Z.min maxIO bufSize in
  match sched with
  | [] => (Fuel, mk_ss buf src [])
  | SGet n :: r =>
    if (p <? 0) || (zlen buf <? p + size) then (UB, mk_ss buf src r) else
    let k := k_read src size n in
    if k <=? 0 then (Fuel, mk_ss buf src r) else
    (Ok k, mk_ss (blit buf p (firstn (Z.to_nat k) src)) (skipn (Z.to_nat k) src) r)
  | SErr c :: r =>
    if c =? ZERO_RETURN then (Ok 0, mk_ss buf src r)
    else if (c =? WANT_READ) || (c =? WANT_WRITE) then ssl_readSome r buf src p bufSize
    else (Exn, mk_ss buf src r)
  end.
(** ssl.hpp:154-162 read *)
Fixpoint ssl_read (fuel : nat) (s : sstate) (p bufSize : Z) : res unit * sstate :=
  if bufSize <=? 0 then (Ok tt, s) else
  match fuel with
  | O => (Fuel, s)
  | S f =>
    match ssl_readSome (ss_sched s) (ss_buf s) (ss_src s) p bufSize with
    | (Ok n, s') => ssl_read f s' (p + n) (bufSize - n)
    | (Exn, s') => (Exn, s')
    | (UB, s') => (UB, s')
    | (Fuel, s') => (Fuel, s')
    end
  end.
(** each iteration uses at least one answer *)
Definition run_read (sched : list sres) (src buf : list Z) (n : Z) := ssl_read (length sched) (mk_ss buf src sched) 0 n.

(** ssl.hpp:163-178 write.  Result: outcome, the bytes the library has taken, and the calls of SSL_write
    (offset, size, answer).  A positive result takes between 1 and size bytes. *)
Fixpoint ssl_write (sched : list sres) (buf : list Z) (p bufSize : Z) (sent : list Z) (calls : list (Z * Z * sres)) : res unit * list Z * list (Z * Z * sres) :=
  if bufSize <=? 0 then (Ok tt, sent, calls) else
  let size := Z.min maxIO bufSize in
  match sched with
  | [] => (Fuel, sent, calls)
  | SErr c :: r =>
    let calls := calls ++ [(p, size, SErr c)] in
    if (c =? WANT_READ) || (c =? WANT_WRITE) then ssl_write r buf p bufSize sent calls
    else (Exn, sent, calls)
  | SGet n :: r =>
    let calls := calls ++ [(p, size, SGet n)] in
    match k_write buf p size (Z.max 1 n) with
    | Ok got => ssl_write r buf (p + zlen got) (bufSize - zlen got) (sent ++ got) calls
    | _ => (UB, sent, calls)
    end
  end.

(** ** Lifetime: the TLS object and the socket *)
(** what the operating system and the library see *)
Inductive ev := ENew | ESocket (fd : nat) | ESetFd (fd : nat) | EConnect | EShutdown | EClose (fd : nat) | EFree.
(** sd_: the descriptor, if any; next: the number of the next new descriptor (numbers name sockets, also closed ones) *)
Record cs := mk_cs { sd : option nat; next : nat; trace : list ev }.
(** how far a connect gets: which call fails *)
Inductive cfail := CNoSocket | CNoConnect | CNoSetFd | CNoHandshake | COk.
Inductive cop := Connect (f : cfail) | Close (dontThrow : bool) (shutdown_ret : Z) (close_ok : bool).
(** socket.hpp:420-433 Socket::close *)
Definition soc_close (s : cs) (dontThrow close_ok : bool) : bool * cs :=
  match sd s with
  | None => (true, s)
  | Some fd => (dontThrow || close_ok, mk_cs None (next s) (trace s ++ [EClose fd]))
  end.
(** ssl.hpp:118-123, 124-141 connect (true: returns, false: throws); socket.hpp:546-556 Socket::connect *)
Definition connect (s : cs) (f : cfail) : bool * cs :=
  match sd s with
  | Some _ => (false, s)
  | None =>
    match f with
    | CNoSocket => (false, s)
    | _ =>
      let fd := next s in
      let s := mk_cs (Some fd) (S fd) (trace s ++ [ESocket fd]) in
      match f with
      | CNoConnect => (false, s)
      | _ =>
        let s := mk_cs (sd s) (next s) (trace s ++ [ESetFd fd]) in
        match f with
        | CNoSetFd => (false, s)
        | _ => (match f with COk => true | _ => false end, mk_cs (sd s) (next s) (trace s ++ [EConnect]))
        end
      end
    end
  end.
(** ssl.hpp:179-190 close *)
Definition close (s : cs) (dontThrow : bool) (shutdown_ret : Z) (close_ok : bool) : bool * cs :=
  match sd s with
  | Some _ =>
    let isOK := shutdown_ret =? 1 in
    let s := mk_cs (sd s) (next s) (trace s ++ [EShutdown]) in
    let (r, s) := soc_close s dontThrow close_ok in
    if r then (dontThrow || isOK, s) else (false, s)
  | None => (true, s)
  end.
Definition cstep (s : cs) (o : cop) : bool * cs := match o with Connect f => connect s f | Close d r c => close s d r c end.
Fixpoint cruns (s : cs) (l : list cop) : list bool * cs :=
  match l with [] => ([], s) | o :: l => let (b, s) := cstep s o in let (bs, s) := cruns s l in (b :: bs, s) end.
(** ssl.hpp:111-117 constructor and ssl.hpp:191-198 destructor: close(DontThrow), SSL_free, then the destructor of soc_ *)
Definition life (new_ok : bool) (l : list cop) (shutdown_ret : Z) (close_ok : bool) : option (list bool) * list ev :=
  if new_ok then
    let (bs, s) := cruns (mk_cs None 0 [ENew]) l in
    let (_, s) := close s true shutdown_ret close_ok in
    let s := mk_cs (sd s) (next s) (trace s ++ [EFree]) in
    let (_, s) := soc_close s true close_ok in
    (Some bs, trace s)
  else (None, []).
