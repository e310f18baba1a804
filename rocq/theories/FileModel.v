(** Model of class File of include/cybozu/file.hpp (POSIX branch) over a kernel with a directory, files and a table of open
    descriptors.  Whether a system call that may fail does fail is decided by the caller of the model (one bool per call); write and
    read take the schedules of TransferModel, whose loops they use.  A call returns (Ok), throws (Exn) or has not returned when its
    schedule is used up (Fuel); the state it leaves is given in every case. *)
Require Import Verif.Common Verif.TransferModel.
Import ListNotations.
Local Open Scope Z_scope.

(** ** The kernel *)
(** an open descriptor: the file, the offset, whether it was opened for reading (else writing), O_APPEND *)
Record ofile := mk_of { ino : nat; pos : Z; forRead : bool; append : bool }.
Record kernel := mk_k { dir : list (list Z * nat); data : list (list Z); fds : list (option ofile) }.
Fixpoint lookup (d : list (list Z * nat)) (n : list Z) : option nat :=
  match d with
  | [] => None
  | (k, i) :: d => if list_eq_dec Z.eq_dec k n then Some i else lookup d n
  end.
(** c_str(): the kernel sees the bytes before the first NUL *)
Fixpoint cut (s : list Z) : list Z := match s with [] => [] | c :: r => if c =? 0 then [] else c :: cut r end.
Fixpoint free_slot (l : list (option ofile)) : nat := match l with Some _ :: r => S (free_slot r) | _ => O end.
Definition occupy (l : list (option ofile)) (o : ofile) : list (option ofile) :=
  if Nat.ltb (free_slot l) (length l) then upd l (free_slot l) (Some o) else l ++ [Some o].
Definition get_fd (k : kernel) (h : Z) : option ofile :=
  if h <? 0 then None else match nth_error (fds k) (Z.to_nat h) with Some (Some o) => Some o | _ => None end.
Definition set_fd (k : kernel) (h : Z) (o : option ofile) : kernel := mk_k (dir k) (data k) (upd (fds k) (Z.to_nat h) o).
Definition content (k : kernel) (i : nat) : list Z := nth i (data k) [].
Definition set_content (k : kernel) (i : nat) (c : list Z) : kernel := mk_k (dir k) (upd (data k) i c) (fds k).
(** ::open: O_RDONLY, or O_WRONLY | O_CREAT with O_APPEND or O_TRUNC; the lowest free number *)
Definition sys_open (k : kernel) (name : list Z) (rdonly app trunc ok : bool) : Z * kernel :=
  if negb ok then (-1, k) else
  match lookup (dir k) name with
  | Some i =>
      let k := if trunc then set_content k i [] else k in
      (Z.of_nat (free_slot (fds k)), mk_k (dir k) (data k) (occupy (fds k) (mk_of i 0 rdonly app)))
  | None =>
      if rdonly then (-1, k) else
      let i := length (data k) in
      (Z.of_nat (free_slot (fds k)), mk_k ((name, i) :: dir k) (data k ++ [[]]) (occupy (fds k) (mk_of i 0 rdonly app)))
  end.
(** ::close: the descriptor is gone even if an error is reported *)
Definition sys_close (k : kernel) (h : Z) (ok : bool) : bool * kernel :=
  match get_fd k h with None => (false, k) | Some _ => (ok, set_fd k h None) end.
(** bytes stored at an offset; a gap is filled with zeros *)
Definition splice (c : list Z) (p : Z) (b : list Z) : list Z :=
  if Nat.eqb (length b) 0 then c else
  firstn (Z.to_nat p) (c ++ repeat 0 (Z.to_nat p - length c)) ++ b ++ skipn (Z.to_nat p + length b) c.

(** ** The object *)
Record mode := mk_mode { m_in : bool; m_out : bool; m_app : bool; m_trunc : bool }.
Record file := mk_file { name_ : list Z; hdl_ : Z; doClose_ : bool; isReadOnly_ : bool }.
(** file.hpp:137-142 File(), 154-160 File(handleType) *)
Definition File0 : file := mk_file [] (-1) true false.
Definition FileH (h : Z) : file := mk_file [] h false false.
(** file.hpp:173 *)
Definition isOpen (f : file) : bool := negb (hdl_ f =? -1).
(** file.hpp:63-81 verifyMode: accepted?, and the object *)
Definition verifyMode (f : file) (m : mode) : bool * file :=
  let f := mk_file (name_ f) (hdl_ f) true (isReadOnly_ f) in
  if Bool.eqb (m_in m) (m_out m) then (false, f) else
  if m_in m then
    (negb (m_app m || m_trunc m), mk_file (name_ f) (hdl_ f) (doClose_ f) true)
  else
    (negb (m_app m && m_trunc m), mk_file (name_ f) (hdl_ f) (doClose_ f) false).
(** file.hpp:107-120 setHandle *)
Definition setHandle (k : kernel) (name : list Z) (m : mode) (ok : bool) : Z * kernel :=
  if m_out m then (if m_app m then sys_open k (cut name) false true false ok else sys_open k (cut name) false false true ok)
  else sys_open k (cut name) true false false ok.
(** file.hpp:338-352 getSize *)
Definition getSize (f : file) (k : kernel) (ok : bool) : res Z :=
  match get_fd k (hdl_ f) with Some o => if ok then Ok (zlen (content k (ino o))) else Exn | None => Exn end.
Inductive seekdir := Beg | Cur | End_.
(** file.hpp:300-337 seek; lseek refuses negative offsets (other failures, such as an offset beyond off_t, are decisions) *)
Definition seek (f : file) (k : kernel) (p : Z) (d : seekdir) (ok : bool) : res unit * kernel :=
  match get_fd k (hdl_ f) with
  | Some o =>
      let q := match d with Beg => 0 | Cur => pos o | End_ => zlen (content k (ino o)) end + p in
      if negb ok || (q <? 0) then (Exn, k)
      else (Ok tt, set_fd k (hdl_ f) (Some (mk_of (ino o) q (forRead o) (append o))))
  | None => (Exn, k)
  end.
(** what the kernel decides during open: open, fstat and lseek succeed *)
Record decide := mk_d { d_open : bool; d_stat : bool; d_seek : bool }.
(** file.hpp:122-135 openSub, 181-185 open *)
Definition open (f : file) (k : kernel) (name : list Z) (m : mode) (d : decide) : res unit * file * kernel :=
  let f := mk_file name (hdl_ f) (doClose_ f) (isReadOnly_ f) in
  if isOpen f then (Exn, f, k) else
  let '(good, f) := verifyMode f m in
  if negb good then (Exn, f, k) else
  let '(h, k) := setHandle k name m (d_open d) in
  let f := mk_file (name_ f) h (doClose_ f) (isReadOnly_ f) in
  if isOpen f then
    if m_app m then
      match getSize f k (d_stat d) with
      | Ok n => let '(r, k) := seek f k n Beg (d_seek d) in (r, f, k)
      | _ => (Exn, f, k)
      end
    else (Ok tt, f, k)
  else (Exn, f, k).
(** file.hpp:186-193 *)
Definition openW (f : file) (k : kernel) (name : list Z) (d : decide) := open f k name (mk_mode false true false true) d.
Definition openR (f : file) (k : kernel) (name : list Z) (d : decide) := open f k name (mk_mode true false false false) d.
(** file.hpp:143-149 File(name, mode): an exception leaves no object, and no destructor runs *)
Definition FileOpen (k : kernel) (name : list Z) (m : mode) (d : decide) : option file * kernel :=
  let '(r, f, k) := open File0 k name m d in
  match r with Ok _ => (Some f, k) | _ => (None, k) end.
(** file.hpp:214-225 close *)
Definition close (f : file) (k : kernel) (ok : bool) : res unit * file * kernel :=
  if negb (isOpen f) then (Ok tt, f, k) else
  let '(b, k) := sys_close k (hdl_ f) ok in
  let f := mk_file (name_ f) (-1) (doClose_ f) (isReadOnly_ f) in
  if (b : bool) then (Ok tt, f, k) else (Exn, f, k).
(** file.hpp:230-250 sync; fsync and fdatasync need an open descriptor *)
Definition sync (f : file) (k : kernel) (ok : bool) : res unit :=
  if negb (isOpen f) then Ok tt else
  if isReadOnly_ f then Ok tt else
  match get_fd k (hdl_ f) with Some _ => if ok then Ok tt else Exn | None => Exn end.
(** file.hpp:161-172 the destructor: an exception of sync skips close *)
Definition dtor (f : file) (k : kernel) (syncOk closeOk : bool) : kernel :=
  if negb (doClose_ f) then k else
  match sync f k syncOk with Ok _ => snd (close f k closeOk) | _ => k end.
(** file.hpp:251-272 write, the loop of TransferModel; a descriptor for reading is refused (EBADF) at the first call *)
Definition write (f : file) (k : kernel) (b : list Z) (sched : list kres) : res unit * kernel :=
  match get_fd k (hdl_ f) with
  | Some o =>
      let '(r, taken) := file_write (if forRead o then [KErr] else sched) b 0 (zlen b) [] in
      let c := content k (ino o) in
      let p := if append o then zlen c else pos o in
      (r, set_fd (set_content k (ino o) (splice c p taken)) (hdl_ f)
            (Some (mk_of (ino o) (if Nat.eqb (length taken) 0 then pos o else p + zlen taken) (forRead o) (append o))))
  | None => (fst (file_write [KErr] b 0 (zlen b) []), k)
  end.
(** the bytes that read delivers from the offset on *)
Definition rest (k : kernel) (o : ofile) : list Z := skipn (Z.to_nat (pos o)) (content k (ino o)).
Definition advance (k : kernel) (h : Z) (o : ofile) (src' : list Z) : kernel :=
  set_fd k h (Some (mk_of (ino o) (pos o + (zlen (rest k o) - zlen src')) (forRead o) (append o))).
(** file.hpp:273-290 readSome(buf, n) into a buffer of n bytes: the bytes read *)
Definition readSome (f : file) (k : kernel) (n : Z) (sched : list kres) : res (list Z) * kernel :=
  match get_fd k (hdl_ f) with
  | Some o =>
      let '(r, s) := TransferModel.readSome (if forRead o then sched else [KErr]) (repeat 0 (Z.to_nat n)) (rest k o) 0 n in
      ((let! c := r in Ok (firstn (Z.to_nat c) (rs_buf s))), advance k (hdl_ f) o (rs_src s))
  | None => (Exn, k)
  end.
(** file.hpp:291-299 read(buf, n): the buffer afterwards *)
Definition read (f : file) (k : kernel) (n : Z) (sched : list kres) : res (list Z) * kernel :=
  match get_fd k (hdl_ f) with
  | Some o =>
      let '(r, s) := run_file_read (if forRead o then sched else [KErr]) (rest k o) (repeat 0 (Z.to_nat n)) n in
      ((let! _ := r in Ok (rs_buf s)), advance k (hdl_ f) o (rs_src s))
  | None => ((let! _ := fst (run_file_read [KErr] [] (repeat 0 (Z.to_nat n)) n) in Ok []), k)
  end.
