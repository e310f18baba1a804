(** Model of SocketAddr::set and toStr of include/cybozu/socket.hpp; addresses are those of FileNameModel.  getaddrinfo is a parameter, and so
    is inet_ntop for IPv6. *)
From Verif Require Import Common FileNameModel ExceptionModel.
Import ListNotations. Local Open Scope Z_scope.

(** an entry of the list of getaddrinfo: ai_family and the ai_addrlen bytes at ai_addr *)
Record ent := mk_ent { e_family : Z; e_addr : list Z }.
(** getaddrinfo(host, service, hints): the family and the flag AI_V4MAPPED of the hints; None: an error (no list is stored) *)
Definition resolver : Type := list Z -> list Z -> Z -> bool -> option (list ent).
(** lists obtained from getaddrinfo (of the given family) and given to freeaddrinfo *)
Inductive ev := Got (fam : Z) | Freed (fam : Z).
(** socket.hpp:208-216 sizeof(addr_) *)
Definition addr_size : Z := 28.
(** socket.hpp:266-278 the loop; None: not found *)
Fixpoint pick (fam : Z) (l : list ent) : option ent :=
  match l with
  | [] => None
  | e :: r => if e_family e =? fam then (if addr_size <? zlen (e_addr e) then None else Some e) else pick fam r
  end.
(** socket.hpp:240-284 set(address, port, forceIpV6): the outcome, the object and the events.  c_str() ends at a NUL *)
Definition set (gai : resolver) (address : list Z) (port : Z) (force : bool) : res unit * sockaddr * list ev :=
  let portStr := snprintf 16 (printf_d port) in
  let host := cstr address in
  let none := mk_sa 0 (repeat 0 28) 0 in
  let finish fam l evs :=
    match pick fam l with
    | Some e => (Ok tt, mk_sa fam (e_addr e ++ repeat 0 (28 - length (e_addr e))) (zlen (e_addr e)), evs ++ [Freed fam])
    | None => (Exn, none, evs ++ [Freed fam])
    end in
  let s := gai host portStr AF_INET false in
  let evs := match s with Some _ => [Got AF_INET] | None => [] end in
  match s, force with
  | Some l, false => finish AF_INET l evs
  | _, _ =>
    match gai host portStr AF_INET6 true with
    | None => (Exn, none, evs)
    | Some l => finish AF_INET6 l (evs ++ [Got AF_INET6])
    end
  end.
(** inet_ntop for IPv4: dotted decimal *)
Definition dotted (b : list Z) : list Z :=
  match b with [w; x; y; z] => printf_d w ++ 46 :: printf_d x ++ 46 :: printf_d y ++ 46 :: printf_d z | _ => [] end.
(** socket.hpp:318-332 toStr; INET6_ADDRSTRLEN is 46, inet_ntop fails when the text and its NUL do not fit.  cybozu::itoa is decimal (C01) *)
Definition toStr (ntop6 : list Z -> list Z) (a : sockaddr) : res (list Z) :=
  if (sa_family a =? AF_INET) || (sa_family a =? AF_INET6) then
    let isIPv4 := sa_family a =? AF_INET in
    let t := if isIPv4 then dotted (firstn 4 (skipn 4 (sa_bytes a))) else ntop6 (firstn 16 (skipn 8 (sa_bytes a))) in
    if 46 <=? zlen t then Exn else
    let! p := getPort a in
    Ok (if isIPv4 then t ++ 58 :: printf_d p else 91 :: t ++ [93; 58] ++ printf_d p)
  else Exn.
