(** Model of the transfer loops of include/cybozu/file.hpp and include/cybozu/socket.hpp (POSIX branches).
    The kernel's answers to the system calls are a schedule: each call fails with EINTR, fails otherwise, or transfers some bytes.
    A schedule that runs out means that the call has not returned yet: outcome Fuel. *)
Require Import Verif.Common.

Inductive kres := KEintr | KErr | KN (n : Z).
(** the bytes [p, p+n) of a buffer *)
Definition slice (buf : list Z) (p n : Z) : list Z := firstn (Z.to_nat n) (skipn (Z.to_nat p) buf).
(** ::write(fd, buf + p, size) takes at most size bytes; the whole range must be readable *)
Definition k_write (buf : list Z) (p size n : Z) : res (list Z) :=
  if (p <? 0) || (zlen buf <? p + size) then UB else Ok (slice buf p (Z.max 0 (Z.min n size))).
(** 0x7fffffff *)
Definition maxIO : Z := 2147483647.

(** file.hpp:251-272 File::write.  Result: outcome and the bytes the kernel has taken. *)
Fixpoint file_write (sched : list kres) (buf : list Z) (p bufSize : Z) (sent : list Z) : res unit * list Z :=
  if bufSize <=? 0 then (Ok tt, sent) else
  match sched with
  | [] => (Fuel, sent)
  | KEintr :: r => file_write r buf p bufSize sent
  | KErr :: _ => (Exn, sent)
  | KN n :: r =>
    match k_write buf p (Z.min maxIO bufSize) n with
    | Ok got => file_write r buf (p + zlen got) (bufSize - zlen got) (sent ++ got)
    | _ => (UB, sent)
    end
  end.

(** socket.hpp:505-524 Socket::write(bool *, const void *, size_t): Ok b is the value stored through the pointer *)
Fixpoint sock_write_b (sched : list kres) (buf : list Z) (p bufSize : Z) (sent : list Z) : res bool * list Z :=
  if bufSize <=? 0 then (Ok true, sent) else
  match sched with
  | [] => (Fuel, sent)
  | KEintr :: r => sock_write_b r buf p bufSize sent
  | KErr :: _ => (Ok false, sent)
  | KN n :: r =>
    match k_write buf p (Z.min maxIO bufSize) n with
    | Ok got => sock_write_b r buf (p + zlen got) (bufSize - zlen got) (sent ++ got)
    | _ => (UB, sent)
    end
  end.
(** socket.hpp:525-530 Socket::write *)
Definition sock_write (sched : list kres) (buf : list Z) (bufSize : Z) : res unit * list Z :=
  let '(r, sent) := sock_write_b sched buf 0 bufSize [] in
  ((let! b := r in if b then Ok tt else Exn), sent).

(** the peer's or file's bytes still to come; ::read(fd, _, size) delivers at least one of them if there are any, and 0 only at the
    end of the stream or for size = 0 *)
Definition k_read (src : list Z) (size n : Z) : Z := Z.min (Z.min size (zlen src)) (Z.max 1 n).
(** the bytes are stored into the buffer at p *)
Definition blit (buf : list Z) (p : Z) (d : list Z) : list Z := firstn (Z.to_nat p) buf ++ d ++ skipn (Z.to_nat p + length d) buf.
Record rstate := mk_rs { rs_buf : list Z; rs_src : list Z; rs_sched : list kres }.

(** file.hpp:273-290 File::readSome; socket.hpp:471-483 Socket::readSome: the same code.  Ok n: the count returned. *)
Fixpoint readSome (sched : list kres) (buf src : list Z) (p bufSize : Z) : res Z * rstate :=
  let size := Z.min maxIO bufSize in
  match sched with
  | [] => (Fuel, mk_rs buf src [])
  | KEintr :: r => readSome r buf src p bufSize
  | KErr :: r => (Exn, mk_rs buf src r)
  | KN n :: r =>
    if (p <? 0) || (zlen buf <? p + size) then (UB, mk_rs buf src r) else
    let k := k_read src size n in
    (Ok k, mk_rs (blit buf p (firstn (Z.to_nat k) src)) (skipn (Z.to_nat k) src) r)
  end.

(** socket.hpp:490-499 Socket::read *)
Fixpoint sock_read (fuel : nat) (s : rstate) (p bufSize : Z) : res unit * rstate :=
  if bufSize <=? 0 then (Ok tt, s) else
  match fuel with
  | O => (Fuel, s)
  | S f =>
    match readSome (rs_sched s) (rs_buf s) (rs_src s) p bufSize with
    | (Ok n, s') => if n =? 0 then (Exn, s') else sock_read f s' (p + n) (bufSize - n)
    | (Exn, s') => (Exn, s')
    | (UB, s') => (UB, s')
    | (Fuel, s') => (Fuel, s')
    end
  end.
(** file.hpp:291-299 File::read *)
Fixpoint file_read (fuel : nat) (s : rstate) (p bufSize : Z) : res unit * rstate :=
  if bufSize <=? 0 then (Ok tt, s) else
  match fuel with
  | O => (Fuel, s)
  | S f =>
    match readSome (rs_sched s) (rs_buf s) (rs_src s) p bufSize with
    | (Ok n, s') => file_read f s' (p + n) (bufSize - n)
    | (Exn, s') => (Exn, s')
    | (UB, s') => (UB, s')
    | (Fuel, s') => (Fuel, s')
    end
  end.
(** one unit of fuel per answer of the kernel: each iteration consumes at least one *)
Definition run_sock_read (sched : list kres) (src buf : list Z) (n : Z) := sock_read (length sched) (mk_rs buf src sched) 0 n.
Definition run_file_read (sched : list kres) (src buf : list Z) (n : Z) := file_read (length sched) (mk_rs buf src sched) 0 n.
