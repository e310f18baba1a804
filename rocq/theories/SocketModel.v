(** Model of include/cybozu/socket.hpp: connecting, listening, accepting, waiting and options (POSIX branches), over a kernel table of
    sockets.  Transfers are in TransferModel, ownership under threads in HandleModel, comparison of addresses in FileNameModel.
    The outcomes of system calls that the program does not control are arguments (environment records). *)
From Verif Require Import Common FileNameModel ExceptionModel TransferModel.
Import ListNotations. Local Open Scope Z_scope.

(** ** The kernel *)
(** a timeout of a socket: none, elapsed at once, or a number of clock ticks *)
Inductive sto := TInf | TNow | TTicks (n : Z).
(** the state of a socket; addresses are byte strings in the layout of struct sockaddr.  Listening: the local address and the peers of the
    connections not accepted yet, the oldest first *)
Inductive sstate := Fresh | Connecting (peer : list Z) | Connected (peer : list Z) | Bound (local : list Z) | Listening (local : list Z) (queue : list (list Z)) | Failed (e : Z).
Record sock := mk_sock { s_fam : Z; s_block : bool; s_reuse : bool; s_v6only : bool; s_state : sstate; s_snd : sto; s_rcv : sto; s_linger : Z * Z }.
Definition with_block (s : sock) (b : bool) : sock := mk_sock (s_fam s) b (s_reuse s) (s_v6only s) (s_state s) (s_snd s) (s_rcv s) (s_linger s).
Definition with_state (s : sock) (x : sstate) : sock := mk_sock (s_fam s) (s_block s) (s_reuse s) (s_v6only s) x (s_snd s) (s_rcv s) (s_linger s).
Definition with_opts (s : sock) (r v : bool) (a b : sto) (l : Z * Z) : sock := mk_sock (s_fam s) (s_block s) r v (s_state s) a b l.
(** the descriptors *)
Definition kernel : Type := list (option sock).
Definition fget (k : kernel) (fd : Z) : option sock := if fd <? 0 then None else match nth_error k (Z.to_nat fd) with Some (Some s) => Some s | _ => None end.
Definition fset (k : kernel) (fd : Z) (v : option sock) : kernel := if fd <? 0 then k else upd k (Z.to_nat fd) v.
(** POSIX: the lowest descriptor that is free *)
Fixpoint fnew (k : kernel) (s : sock) : nat * kernel :=
  match k with
  | [] => (O, [Some s])
  | None :: k => (O, Some s :: k)
  | Some x :: k => let '(n, k) := fnew k s in (S n, Some x :: k)
  end.
Definition new_sock (fam : Z) (st : sstate) : sock := mk_sock fam true false false st TInf TInf (0, 0).
(** socket(2) *)
Definition sys_socket (k : kernel) (fam : Z) (ok : bool) : Z * kernel :=
  if ok then let '(n, k) := fnew k (new_sock fam Fresh) in (Z.of_nat n, k) else (-1, k).
(** close(2): the descriptor is gone whatever the result *)
Definition sys_close (k : kernel) (fd : Z) (ok : bool) : bool * kernel := match fget k fd with Some _ => (ok, fset k fd None) | None => (false, k) end.
(** ioctl(FIONBIO) *)
Definition sys_fionbio (k : kernel) (fd : Z) (val : Z) (ok : bool) : bool * kernel :=
  match fget k fd with Some s => if ok then (true, fset k fd (Some (with_block s (val =? 0)))) else (false, k) | None => (false, k) end.
(** connect(2).  A connection that cannot be made at once is waited for on a blocking socket; otherwise errno is EINPROGRESS *)
Inductive cres := CDone | CLater (* the handshake takes time *) (ok : bool) | CRefused.
Definition sys_connect (k : kernel) (fd : Z) (addr : list Z) (c : cres) : Z * kernel :=
  match fget k fd with
  | Some s =>
    let '(r, st) :=
      match c with
      | CDone | CLater true => if s_block s then (0, Connected addr) else match c with CDone => (0, Connected addr) | _ => (-115, Connecting addr) end
      | CLater false => if s_block s then (-110, Failed 110) else (-115, Connecting addr)
      | CRefused => (-111, Failed 111)
      end in
    (r, fset k fd (Some (with_state s st)))
  | None => (-9, k)
  end.
(** bind(2), listen(2): the family and the size of the address must be those of the socket *)
Definition sys_bind (k : kernel) (fd : Z) (addr : list Z) (ok : bool) : bool * kernel :=
  match fget k fd with
  | Some s =>
    match s_state s, addr with
    | Fresh, f0 :: f1 :: _ => if ok && (f0 + 256 * f1 =? s_fam s) && (zlen addr =? if s_fam s =? AF_INET then 16 else 28) then (true, fset k fd (Some (with_state s (Bound addr)))) else (false, k)
    | _, _ => (false, k)
    end
  | None => (false, k)
  end.
Definition sys_listen (k : kernel) (fd : Z) (ok : bool) : bool * kernel :=
  match fget k fd with
  | Some s => match s_state s with Bound a => if ok then (true, fset k fd (Some (with_state s (Listening a [])))) else (false, k) | _ => (false, k) end
  | None => (false, k)
  end.
(** accept(2) with the peers that arrive while it waits.  Fuel: it never returns.  The result is the descriptor and the peer's address. *)
Definition sys_accept (k : kernel) (fd : Z) (arrive : list (list Z)) (ok : bool) : res (Z * list Z) * kernel :=
  match fget k fd with
  | Some s =>
    match s_state s with
    | Listening a q =>
      if negb ok then (Ok (-1, []), k) else
      match q ++ arrive with
      | [] => if s_block s then (Fuel, k) else (Ok (-1, []), k)
      | p :: q' =>
        let k1 := fset k fd (Some (with_state s (Listening a q'))) in
        let '(n, k2) := fnew k1 (new_sock (s_fam s) (Connected p)) in
        (Ok (Z.of_nat n, p), k2)
      end
    | _ => (Ok (-1, []), k)
    end
  | None => (Ok (-1, []), k)
  end.
(** what happens while select waits for a given time: it is interrupted or fails with an error (errno), connections arrive at a listening socket, a
    connection that is being made ends (Some 0: it stands, Some e: it failed with error e) *)
Record wenv := mk_w { w_err : option Z; w_arrive : list (list Z); w_conn : option Z }.
(** the socket is watched for reading (true) or writing: whether it is ready, and its new state *)
Definition ready (st : sstate) (rd : bool) (w : wenv) : bool * sstate :=
  match st, rd with
  | Listening a q, true => (match q ++ w_arrive w with [] => false | _ => true end, Listening a (q ++ w_arrive w))
  | Connecting p, false => match w_conn w with Some e => (true, if e =? 0 then Connected p else Failed e) | None => (false, st) end
  | Connected _, false => (true, st)
  | Failed _, _ => (true, st)
  | _, _ => (false, st)
  end.
(** select(2) on sets of descriptors: the count, or a negated errno.  EINVAL: a negative time; w: what happens in a time (microseconds) *)
Definition sys_select (k : kernel) (nfds : Z) (fds : list Z) (rd : bool) (sec usec : Z) (we : Z -> wenv) : Z * kernel :=
  if (sec <? 0) || (usec <? 0) then (-22, k) else
  let w := we (sec * 1000000 + usec) in
  match w_err w with
  | Some e => (- e, k)
  | None =>
    fold_left (fun '(n, k) fd =>
      if fd <? nfds then match fget k fd with Some s => let '(b, st) := ready (s_state s) rd w in ((if b then n + 1 else n), fset k fd (Some (with_state s st))) | None => (n, k) end else (n, k)) fds (0, k)
  end.
(** option levels and names *)
Definition SOL_SOCKET := 1. Definition IPPROTO_IPV6 := 41. Definition SO_REUSEADDR := 2. Definition SO_ERROR := 4. Definition SO_LINGER := 13. Definition SO_RCVTIMEO := 20. Definition SO_SNDTIMEO := 21. Definition IPV6_V6ONLY := 26.
(** the values given to setsockopt: an int, a struct timeval, a struct linger, a pointer (8 bytes, little endian) *)
Inductive oval := VInt (n : Z) | VTime (sec usec : Z) | VLinger (onoff linger : Z) | VPtr (a : Z).
(** Linux sock_set_timeout with hz ticks per second: tv_usec must be in range (EDOM), a negative time elapses at once, zero is none, and the
    microseconds are rounded up to a tick *)
Definition set_timeo (hz sec usec : Z) : option sto :=
  if (usec <? 0) || (1000000 <=? usec) then None else
  if sec <? 0 then Some TNow else
  if (sec =? 0) && (usec =? 0) then Some TInf else
  Some (TTicks (sec * hz + (usec + 1000000 / hz - 1) / (1000000 / hz))).
(** Linux sock_get_timeout *)
Definition get_timeo (hz : Z) (t : sto) : Z * Z := match t with TTicks n => (n / hz, n mod hz * 1000000 / hz) | _ => (0, 0) end.
(** setsockopt(2) for these options.  A struct linger is two ints: from a pointer they are the halves of the address *)
Definition sys_setsockopt (hz : Z) (k : kernel) (fd level name : Z) (v : oval) (ok : bool) : bool * kernel :=
  match fget k fd with
  | Some s =>
    let put r x a b l := (true, fset k fd (Some (with_opts s r x a b l))) in
    if negb ok then (false, k) else
    match v with
    | VInt n => if (level =? SOL_SOCKET) && (name =? SO_REUSEADDR) then put (negb (n =? 0)) (s_v6only s) (s_snd s) (s_rcv s) (s_linger s) else
                if (level =? IPPROTO_IPV6) && (name =? IPV6_V6ONLY) && (s_fam s =? AF_INET6) then put (s_reuse s) (negb (n =? 0)) (s_snd s) (s_rcv s) (s_linger s) else (false, k)
    | VTime x y => if negb (level =? SOL_SOCKET) then (false, k) else
                match set_timeo hz x y with
                | None => (false, k)
                | Some t => if name =? SO_SNDTIMEO then put (s_reuse s) (s_v6only s) t (s_rcv s) (s_linger s) else if name =? SO_RCVTIMEO then put (s_reuse s) (s_v6only s) (s_snd s) t (s_linger s) else (false, k)
                end
    | VLinger a b => if (level =? SOL_SOCKET) && (name =? SO_LINGER) then put (s_reuse s) (s_v6only s) (s_snd s) (s_rcv s) (a, b) else (false, k)
    | VPtr a => if (level =? SOL_SOCKET) && (name =? SO_LINGER) then put (s_reuse s) (s_v6only s) (s_snd s) (s_rcv s) (a mod 2 ^ 32, a / 2 ^ 32) else (false, k)
    end
  | None => (false, k)
  end.

(** ** Socket: the object is its sd_ *)
(** socket.hpp:383 *)
Definition INVALID_SOCKET : Z := -1.
(** socket.hpp:390 *)
Definition isValid (o : Z) : bool := negb (o =? INVALID_SOCKET).
(** socket.hpp:420-433 close(dontThrow); the atomic exchange is in HandleModel *)
Definition close (o : Z) (k : kernel) (dontThrow ok : bool) : res bool * Z * kernel :=
  if o =? INVALID_SOCKET then (Ok true, INVALID_SOCKET, k) else
  let '(isOK, k) := sys_close k o ok in
  (if negb dontThrow && negb isOK then Exn else Ok isOK, INVALID_SOCKET, k).
(** socket.hpp:370-380 setBlocking *)
Definition setBlocking (o : Z) (k : kernel) (isBlocking ok : bool) : res unit * kernel :=
  let val := if isBlocking then 0 else 1 in
  let '(b, k) := sys_fionbio k o val ok in (if b then Ok tt else Exn, k).
(** socket.hpp:686-691 setSocketOption *)
Definition setSocketOption (hz o : Z) (k : kernel) (optname : Z) (v : oval) (level : Z) (ok : bool) : res unit * kernel :=
  let '(b, k) := sys_setsockopt hz k o level optname v ok in (if b then Ok tt else Exn, k).
(** FD_SETSIZE: a fd_set has this many bits; FD_SET beyond them is a write outside it *)
Definition FD_SETSIZE : Z := 1024.
Definition FD_SET (n : Z) (fds : list Z) : res (list Z) := if (n <? 0) || (FD_SETSIZE <=? n) then UB else Ok (n :: fds).
(** socket.hpp:621-656 queryAcceptNoThrow, with select; / and % truncate *)
Definition queryAcceptNoThrow (o : Z) (k : kernel) (msec : Z) (checkWrite : bool) (w : Z -> wenv) : res Z * kernel :=
  if o =? INVALID_SOCKET then (Ok (-9), k) else
  if FD_SETSIZE <=? o then (Ok (-24), k) else
  let sec := Z.quot msec 1000 in let usec := Z.rem msec 1000 * 1000 in
  match FD_SET o [] with
  | Ok fds => let '(n, k) := sys_select k (o + 1) fds checkWrite sec usec w in (Ok n, k)
  | _ => (UB, k)
  end.
(** socket.hpp:663-668 queryAccept *)
Definition queryAccept (o : Z) (k : kernel) (msec : Z) (checkWrite : bool) (w : Z -> wenv) : res bool * kernel :=
  let '(r, k) := queryAcceptNoThrow o k msec checkWrite w in
  (match r with Ok n => if n <? 0 then Exn else Ok (0 <? n) | Exn => Exn | UB => UB | Fuel => Fuel end, k).
(** what happens in connect: ::socket, the two ioctl, ::connect, the wait, getsockopt *)
Record cenv := mk_c { c_sock : bool; c_nb : bool; c_conn : cres; c_wait : Z -> wenv; c_getopt : bool; c_b : bool }.
(** socket.hpp:692-704 getSocketOption with SO_ERROR: the error of the connection that was being made *)
Definition so_error (k : kernel) (fd : Z) : Z := match fget k fd with Some s => match s_state s with Failed e => e | _ => 0 end | None => 0 end.
(** socket.hpp:546-572 connect(addr, msec) *)
Definition connect (o : Z) (k : kernel) (addr : sockaddr) (msec : Z) (e : cenv) : res unit * Z * kernel :=
  if isValid o then (Exn, o, k) else
  let '(o, k) := sys_socket k (sa_family addr) (c_sock e) in
  if negb (isValid o) then (Exn, o, k) else
  let peer := firstn (Z.to_nat (sa_len addr)) (sa_bytes addr) in
  if msec =? 0 then
    let '(r, k) := sys_connect k o peer (c_conn e) in
    (if r <? 0 then Exn else Ok tt, o, k)
  else
    let '(b, k) := setBlocking o k false (c_nb e) in
    match b with
    | Ok _ =>
      let '(r, k) := sys_connect k o peer (c_conn e) in
      let '(go, k) :=
        if r <? 0 then
          if negb (r =? -115) then (Exn, k) else
          let '(q, k) := queryAccept o k msec false (c_wait e) in
          match q with
          | Ok true => if c_getopt e then (if so_error k o =? 0 then (Ok tt, k) else (Exn, k)) else (Exn, k)
          | Ok false => (Exn, k)
          | Exn => (Exn, k) | UB => (UB, k) | Fuel => (Fuel, k)
          end
        else (Ok tt, k) in
      match go with
      | Ok _ => let '(b, k) := setBlocking o k true (c_b e) in (b, o, k)
      | x => (x, o, k)
      end
    | x => (x, o, k)
    end.
(** what happens in bind *)
Record benv := mk_b { b_sock : bool; b_reuse : bool; b_v6 : bool; b_bind : bool; b_listen : bool; b_close : bool }.
(** htons: the two bytes of the port in memory *)
Definition htons (p : Z) : list Z := [p / 256; p mod 256].
(** socket.hpp:574-614 bind(port, mode); allowIPv4 = 1, allowIPv6 = 2.  sin6_port and sin_port are at offset 2, the address is zero *)
Definition bind (hz o : Z) (k : kernel) (port mode : Z) (e : benv) : res unit * Z * kernel :=
  let v6 := negb (Z.land mode 2 =? 0) in
  let family := if v6 then AF_INET6 else AF_INET in
  let '(o, k) := sys_socket k family (b_sock e) in
  if negb (isValid o) then (Exn, o, k) else
  let '(r, k) := setSocketOption hz o k SO_REUSEADDR (VInt 1) SOL_SOCKET (b_reuse e) in
  match r with
  | Ok _ =>
    let '(r, k) := if v6 then setSocketOption hz o k IPV6_V6ONLY (VInt (if Z.land mode 1 =? 0 then 1 else 0)) IPPROTO_IPV6 (b_v6 e) else (Ok tt, k) in
    match r with
    | Ok _ =>
      let addr := if v6 then [10; 0] ++ htons port ++ repeat 0 24 else [2; 0] ++ htons port ++ repeat 0 12 in
      let '(b, k1) := sys_bind k o addr (b_bind e) in
      let '(l, k2) := if b then sys_listen k1 o (b_listen e) else (false, k1) in
      if l then (Ok tt, o, k2) else
      let '(_, o, k3) := close o k2 true (b_close e) in (Exn, o, k3)
    | x => (x, o, k)
    end
  | x => (x, o, k)
  end.
(** socket.hpp:673-684 accept(client, paddr): paddr is the caller's SocketAddr; the kernel stores at most sizeof(addr_) = 28 bytes and the
    size of the peer's address.  When ::accept fails addrlen_ stays 28 and addr_ is as it was. *)
Definition accept (o : Z) (k : kernel) (client : Z) (paddr : option sockaddr) (arrive : list (list Z)) (ok : bool) : res unit * Z * option sockaddr * kernel :=
  let '(r, k) := sys_accept k o arrive ok in
  match r with
  | Ok (fd, peer) =>
    match paddr with
    | Some a =>
      let a1 := if fd <? 0 then mk_sa (sa_family a) (sa_bytes a) 28 else mk_sa (sa_family a) (blit (sa_bytes a) 0 (firstn 28 peer)) (zlen peer) in
      match verify a1 with
      | Ok a2 => (if isValid fd then Ok tt else Exn, fd, Some a2, k)
      | Exn => (Exn, fd, Some a1, k) | UB => (UB, fd, Some a1, k) | Fuel => (Fuel, fd, Some a1, k)
      end
    | None => (if isValid fd then Ok tt else Exn, fd, None, k)
    end
  | _ => (Fuel, client, paddr, k)
  end.
(** socket.hpp:355-361 setTimeout *)
Definition setTimeout (hz o : Z) (k : kernel) (type msec : Z) (ok : bool) : res unit * kernel :=
  setSocketOption hz o k type (VTime (Z.quot msec 1000) (Z.rem msec 1000 * 1000)) SOL_SOCKET ok.
(** conversion of a long to int *)
Definition to_int (x : Z) : Z := (x + 2 ^ 31) mod 2 ^ 32 - 2 ^ 31.
(** socket.hpp:362-368 getTimeout *)
Definition getTimeout (hz o : Z) (k : kernel) (type : Z) (ok : bool) : res Z :=
  match fget k o with
  | Some s => if ok then let '(sec, usec) := get_timeo hz (if type =? SO_SNDTIMEO then s_snd s else s_rcv s) in Ok (to_int (sec * 1000 + usec / 1000)) else Exn
  | None => Exn
  end.
(** socket.hpp:749-764 *)
Definition setSendTimeout (hz o : Z) k msec ok := setTimeout hz o k SO_SNDTIMEO msec ok.
Definition setReceiveTimeout (hz o : Z) k msec ok := setTimeout hz o k SO_RCVTIMEO msec ok.
(** socket.hpp:765-778 *)
Definition getSendTimeout (hz o : Z) k ok := getTimeout hz o k SO_SNDTIMEO ok.
Definition getReceiveTimeout (hz o : Z) k ok := getTimeout hz o k SO_RCVTIMEO ok.
(** socket.hpp:708-714 setLinger: &linger is given, so T is a pointer and the option's bytes are the address of the local variable *)
Definition setLinger (hz o : Z) (k : kernel) (l_onoff l_linger : Z) (addr_of_local : Z) (ok : bool) : res unit * kernel :=
  setSocketOption hz o k SO_LINGER (VPtr addr_of_local) SOL_SOCKET ok.
(** socket.hpp:452-463 waitForClose, with shutdown socket.hpp:439-444: src is what the peer still sends before it closes *)
Definition waitForClose (o : Z) (shutOk : bool) (sched : list kres) (src : list Z) : res unit :=
  if o =? INVALID_SOCKET then Ok tt else
  if negb shutOk then Exn else
  match fst (readSome sched [0] src 0 1) with
  | Ok n => if n =? 0 then Ok tt else Exn
  | Exn => Exn | UB => UB | Fuel => Fuel
  end.

(** ** The variant with epoll (CYBOZU_SOCKET_USE_EPOLL) *)
(** socket.hpp:122-136 Epoll::wait: the time given to epoll_wait *)
Definition epoll_msec (msec : Z) : Z := if msec =? 0 then -1 else if msec =? -1 then 0 else msec.
(** socket.hpp:623-634, 85-118, 140-154 queryAcceptNoThrow: init, add (which throws: no err is given), wait, and the destructor of AutoLock,
    whose del evaluates &ev->ev_ for a null ev.  None: no wait took place; Some t: epoll_wait was called with the time t *)
Definition queryAcceptEpoll (o msec : Z) (init add : option Z) (ret : Z) : res Z * option Z :=
  if o =? INVALID_SOCKET then (Ok (-9), None) else
  match init with
  | Some err => (Ok (- err), None)
  | None => match add with Some _ => (Exn, None) | None => (UB, Some (epoll_msec msec)) end
  end.
