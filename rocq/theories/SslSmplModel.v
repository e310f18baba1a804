(** Model of sample/ssl_smpl.cpp: a program that fetches a page. The answers of the TLS library to writing and reading are schedules, as in SslModel.v;
    [src] are the bytes the server sends. *)
Require Import Verif.Common Verif.Text Verif.ExceptionModel Verif.SslModel.

(** printf %s of std::string(buf, n).c_str(): up to the first NUL *)
Fixpoint c_text (l : list Z) : list Z := match l with [] => [] | c :: r => if c =? 0 then [] else c :: c_text r end.
(** ssl_smpl.cpp:23-31 the loop; char buf[1024] holds [garbage] when it is entered. Result: outcome, what is printed, total, what is still to come *)
Fixpoint fetch (fuel : nat) (garbage : nat -> list Z) (sched : list sres) (src : list Z) (total : Z) (out : list Z) : res unit * list Z * Z * list Z :=
  match fuel with
  | O => (Fuel, out, total, src)
  | S f =>
    match ssl_readSome sched (garbage O) src 0 1024 with
    | (Ok n, s) =>
      if n =? 0 then (Ok tt, out, total, ss_src s)
      else fetch f (fun i => garbage (S i)) (ss_sched s) (ss_src s) (total + n) (out ++ c_text (firstn (Z.to_nat n) (ss_buf s)))
    | (Exn, s) => (Exn, out, total, ss_src s)
    | (UB, s) => (UB, out, total, ss_src s)
    | (Fuel, s) => (Fuel, out, total, ss_src s)
    end
  end.
(** (int)total *)
Definition as_int (x : Z) : Z := (x + 2 ^ 31) mod 2 ^ 32 - 2 ^ 31.
Definition crlf : list Z := [13; 10].
(** ssl_smpl.cpp:19 *)
Definition http (path : list Z) : list Z := str "GET " ++ path ++ str " HTTP/1.0" ++ crlf ++ crlf.
Inductive fate := Exit (code : Z) | Waits | Undefined.
(** what the program writes to the standard output, what it sends, how it ends *)
Record run := mk_run { r_out : list Z; r_sent : list Z; r_end : fate }.
(** ssl_smpl.cpp:34 *)
Definition failed (out what sent : list Z) : run := mk_run (out ++ str "err=" ++ what ++ [10]) sent (Exit 1).
(** ssl_smpl.cpp:5-37; [args] are the arguments without the program's name, [connected] tells whether ClientSocket and connect succeed, [what]
    is the text of an exception *)
Definition main (args : list (list Z)) (connected : bool) (wsched rsched : list sres) (src : list Z) (garbage : nat -> list Z) (what : list Z) : run :=
  match args with
  | host :: path :: _ =>
    let out := str "connect " ++ c_text host ++ [10] in
    if negb connected then failed out what [] else
    let out := out ++ str "cmd=" ++ c_text (http path) ++ [10] in
    match ssl_write wsched (http path) 0 (zlen (http path)) [] [] with
    | (Ok _, sent, _) =>
      match fetch (S (length rsched)) garbage rsched src 0 (out ++ str "write end" ++ [10]) with
      | (Ok _, out, total, _) => mk_run (out ++ [10] ++ str "total=" ++ printf_d (as_int total) ++ [10]) sent (Exit 0)
      | (Exn, out, _, _) => failed out what sent
      | (UB, out, _, _) => mk_run out sent Undefined
      | (Fuel, out, _, _) => mk_run out sent Waits
      end
    | (Exn, sent, _) => failed out what sent
    | (UB, sent, _) => mk_run out sent Undefined
    | (Fuel, sent, _) => mk_run out sent Waits
    end
  | _ => mk_run [] [] (Exit 1)
  end.
