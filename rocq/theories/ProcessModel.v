(** Model of include/cybozu/process.hpp: process::Start and IsAlive (POSIX branch), class Process, and the command line built by
    the Windows branch of Start.
    The kernel's decisions are fields of a record: which calls fail, which number fork returns, whether execv accepts the program.
    A process's descriptors are a table; pipe, open and dup2 behave as in POSIX (the lowest free number is handed out).
    Not modelled: other threads of the caller that open or inherit descriptors meanwhile, the output buffers that ::exit in the
    child flushes a second time, access rights. *)
Require Import Verif.Common.

(** what a descriptor stands for: something the caller had before, the two ends of the pipe made by Start, the null device *)
Inductive fobj := FOld (n : Z) | FPipeR | FPipeW | FNull (rdonly : bool).
(** a table entry: the object and its close-on-exec flag; None: the number is free *)
Definition fdt := list (option (fobj * bool)).
Definition look (t : fdt) (n : nat) : option (fobj * bool) := nth n t None.
Fixpoint setd (t : fdt) (n : nat) (v : option (fobj * bool)) : fdt :=
  match n with
  | O => v :: tl t
  | S m => hd None t :: setd (tl t) m v
  end.
(** the number POSIX hands out *)
Fixpoint lowest (t : fdt) : nat :=
  match t with
  | [] => O
  | None :: _ => O
  | Some _ :: r => S (lowest r)
  end.
Definition is_obj (o : fobj) (e : option (fobj * bool)) : bool :=
  match e, o with
  | Some (FPipeR, _), FPipeR => true
  | Some (FPipeW, _), FPipeW => true
  | _, _ => false
  end.
(** is some descriptor of the table that end of the pipe? *)
Definition holds (o : fobj) (t : fdt) : bool := existsb (is_obj o) t.
(** execv closes the descriptors marked close-on-exec *)
Definition at_exec (t : fdt) : fdt := map (fun e => match e with Some (_, true) => None | _ => e end) t.

Record env := mk_env {
  e_pipe : bool;            (* ::pipe succeeds *)
  e_fcntl : bool;           (* ::fcntl succeeds *)
  e_fork : option Z;        (* the child's pid, or None: fork fails *)
  e_open : nat -> bool;     (* open("/dev/null") number i succeeds *)
  e_dup : nat -> bool;      (* dup2 number i succeeds *)
  e_sysconf : Z;            (* sysconf(_SC_OPEN_MAX) converted to int *)
  e_junk : option Z;        (* the value found in the uninitialised maxFd; None: reading it counts as undefined behaviour *)
  e_exec : bool;            (* execv accepts the program *)
  e_write : bool;           (* ::write to the pipe succeeds *)
  e_intr : bool;            (* ::read in the caller is interrupted by a signal *)
  e_exited : bool           (* the child has exited by the time of waitpid(WNOHANG) *)
}.

(** process.hpp:41-82 class Pipe: fd_[Read], fd_[Write]; None is -1 *)
Record pipe := mk_pipe { p_r : option nat; p_w : option nat }.
(** process.hpp:52-61 Pipe::init *)
Definition pipe_init (e : env) (t : fdt) : bool * pipe * fdt :=
  if negb (e_pipe e) then (false, mk_pipe None None, t) else
  let r := lowest t in
  let t := setd t r (Some (FPipeR, false)) in
  let w := lowest t in
  let t := setd t w (Some (FPipeW, false)) in
  if negb (e_fcntl e) then (false, mk_pipe (Some r) (Some w), t) else
  (true, mk_pipe (Some r) (Some w), setd t w (Some (FPipeW, true))).
(** process.hpp:62-68 Pipe::close *)
Definition close_r (p : pipe) (t : fdt) : pipe * fdt :=
  match p_r p with Some r => (mk_pipe None (p_w p), setd t r None) | None => (p, t) end.
Definition close_w (p : pipe) (t : fdt) : pipe * fdt :=
  match p_w p with Some w => (mk_pipe (p_r p) None, setd t w None) | None => (p, t) end.
(** process.hpp:77-81 ~Pipe *)
Definition pipe_dtor (p : pipe) (t : fdt) : fdt := let '(p, t) := close_r p t in snd (close_w p t).

(** process.hpp:84-93 toDevNull(fd, flags); i counts the calls *)
Definition toDevNull (e : env) (i fd : nat) (rdonly : bool) (t : fdt) : bool * fdt :=
  if negb (e_open e i) then (false, t) else
  let newFd := lowest t in
  let t := setd t newFd (Some (FNull rdonly, false)) in
  if e_dup e i then
    let t := if Nat.eqb newFd fd then t else setd t fd (Some (FNull rdonly, false)) in
    (true, setd t newFd None)
  else (false, setd t newFd None).

(** a C string ends at the first NUL *)
Fixpoint c_str (s : list Z) : list Z :=
  match s with [] => [] | c :: r => if c =? 0 then [] else c :: c_str r end.
(** process.hpp:173-175 the loop for (int i = from; i < maxFd; i++) close(i); n is the number of rounds *)
Fixpoint close_from (n from : nat) (t : fdt) : fdt :=
  match n with O => t | S m => close_from m (S from) (setd t from None) end.

(** process.hpp:165-169 the standard descriptors, if closeStdio *)
Definition stdio (e : env) (closeStdio : bool) (t : fdt) : bool * fdt :=
  if closeStdio then
    let '(ok, t) := toDevNull e 0 0 true t in
    if negb ok then (false, t) else
    let '(ok, t) := toDevNull e 1 1 false t in
    if negb ok then (false, t) else
    toDevNull e 2 2 false t
  else (true, t).
(** what becomes of the child: it runs the program (its arguments and descriptors), or exits; and whether the byte "x" is in the pipe *)
Inductive cend := CRuns (argv : list (list Z)) (t : fdt) | CExits.
Definition child_err (e : env) (p : pipe) (t : fdt) : res (cend * bool) :=
  let written := match p_w p with Some w => e_write e && is_obj FPipeW (look t w) | None => false end in
  Ok (CExits, written).
(** process.hpp:154-186 the child's branch of Start *)
Definition child (e : env) (p : pipe) (t : fdt) (exe : list Z) (arg : list (list Z)) (closeStdio : bool) : res (cend * bool) :=
  let '(p, t) := close_r p t in
  let argv := c_str exe :: map c_str arg in
  let '(ok, t) := stdio e closeStdio t in
  if negb ok then child_err e p t else
  let! maxFd := if e_sysconf e <? 0 then Ok 1024 else match e_junk e with Some v => Ok v | None => UB end in
  let t := close_from (Z.to_nat (maxFd - 3)) 3 t in
  if e_exec e then Ok (CRuns argv (at_exec t), false)
  else child_err e p t.

(** the observable outcome: the value returned, the caller's descriptors, *hdl if it was written, the child, and whether the child
    was left as a zombie by this call *)
Record sout := mk_sout { s_ret : bool; s_fds : fdt; s_hdl : option Z; s_child : option cend; s_zombie : bool }.

(** ::read on the pipe (process.hpp:195): -1 if interrupted or not open for reading, 1 if the byte is there, 0 at the end of the
    pipe; it does not return (Fuel) as long as some process holds the writing end *)
Definition pipe_read (e : env) (p : pipe) (t : fdt) (c : cend) (byte : bool) : res Z :=
  match p_r p with
  | Some r =>
    if e_intr e || negb (is_obj FPipeR (look t r)) then Ok (-1) else
    if byte then Ok 1 else
    if holds FPipeW t || match c with CRuns _ t' => holds FPipeW t' | CExits => false end then Fuel else Ok 0
  | None => Ok (-1)
  end.

(** process.hpp:143-201 Start, POSIX branch *)
Definition Start (e : env) (t : fdt) (exe : list Z) (arg : list (list Z)) (closeStdio : bool) : res sout :=
  let '(ok, p, t) := pipe_init e t in
  if negb ok then Ok (mk_sout false (pipe_dtor p t) None None false) else
  match e_fork e with
  | None => Ok (mk_sout false (pipe_dtor p t) None None false)
  | Some pid =>
    let! (c, byte) := child e p t exe arg closeStdio in
    let '(p, t) := close_w p t in
    let! n := pipe_read e p t c byte in
    if n =? 1 then Ok (mk_sout false (pipe_dtor p t) None (Some c) (negb (e_exited e)))
    else Ok (mk_sout true (pipe_dtor p t) (Some pid) (Some c) false)
  end.

(** ** class Process *)

(** what the kernel knows about a child of the caller *)
Inductive pstat := PRunning | PExited (code : Z) | PKilled.
Definition kern := list (Z * pstat).
Fixpoint kfind (pid : Z) (k : kern) : option pstat :=
  match k with [] => None | (q, s) :: r => if q =? pid then Some s else kfind pid r end.
Definition kdel (pid : Z) (k : kern) : kern := filter (fun x => negb (fst x =? pid)) k.
(** waitpid(pid, &status, WNOHANG) for pid > 0: 0 while it runs, the pid once (the zombie is then gone), -1 if there is no such child *)
Definition waitpid (pid : Z) (k : kern) : Z * pstat * kern :=
  match kfind pid k with
  | None => (-1, PRunning, k)
  | Some PRunning => (0, PRunning, k)
  | Some s => (pid, s, kdel pid k)
  end.
(** process.hpp:237-251 IsAlive (POSIX branch): the result, what is stored through exitCode (None: nothing), the kernel's state *)
Definition IsAlive (hdl : Z) (k : kern) : bool * option Z * kern :=
  let '(p, status, k) := waitpid hdl k in
  if p =? 0 then (true, None, k) else
  if p =? hdl then
    match status with
    | PExited code => (false, Some code, k)
    | _ => (false, Some (-1), k)
    end
  else (false, None, k).

(** process.hpp:37 InvalidHandle; 312-315 isValid *)
Definition InvalidHandle : Z := -1.
Definition isValid (hdl : Z) : bool := negb (hdl =? InvalidHandle).
(** process.hpp:316-320 Process::isAlive: the result and the value in *exitCode *)
Definition isAlive (hdl : Z) (k : kern) : bool * Z * kern :=
  if isValid hdl then
    let '(b, code, k) := IsAlive hdl k in
    (b, match code with Some c => c | None => 0 end, k)
  else (false, 0, k).
(** process.hpp:258-263 Process::move: the assertion, then the handle changes hands (both cells afterwards); Exn: assertion failure *)
Definition move (dst src : Z) : res (Z * Z) :=
  if isValid dst then Exn else Ok (src, InvalidHandle).
(** process.hpp:264-270 Process::close (process::Close does nothing on POSIX: 211-214) *)
Definition pclose (hdl : Z) : Z := InvalidHandle.
(** process.hpp:293-297 run(exe, vector, closeStdio): the new handle and the result *)
Definition run_hdl (hdl : Z) (o : sout) : Z * bool :=
  let hdl := pclose hdl in
  (match s_hdl o with Some pid => pid | None => hdl end, s_ret o).
(** process.hpp:298-311 run(exe, p1, ..., p9): empty arguments are left out *)
Definition run_args (ps : list (list Z)) : list (list Z) := filter (fun p => match p with [] => false | _ => true end) ps.

(** One thread works with several Process objects while the children come to their ends. *)
Inductive pop :=
| PCopy (dst src : nat)     (* constructs object dst as a copy of src: process.hpp:280-284 *)
| PAssign (dst src : nat)   (* process.hpp:285-292 operator= *)
| PRun (i : nat) (pid : option Z) (* run: the pid of the started child, or None if Start returned false *)
| PAlive (i : nat)          (* isAlive(&exitCode) *)
| PDtor (i : nat)           (* process.hpp:276-279 ~Process *)
| PEnd (pid : Z) (st : pstat). (* not a call: the child pid exits or is killed *)
(** what can be seen: a child was started, a child came to its end, isAlive on an object holding pid returned this *)
Inductive obs := OStart (pid : Z) | OEnd (pid : Z) (st : pstat) | OAnswer (pid : Z) (alive : bool) (exitCode : Z).
Record psys := mk_psys { y_objs : list Z; y_kern : kern }.
(** UB: not a history that can happen (no such object; an object constructed in the place of a live one; the kernel hands out the
    pid of a child that still exists; a child that does not run comes to its end) *)
Definition pstep (s : psys) (o : pop) : res (psys * list obs) :=
  match o with
  | PCopy d k =>
    match nth_error (y_objs s) d, nth_error (y_objs s) k with
    | Some a, Some b =>
      if Nat.eqb d k || isValid a then UB else
      let! (a, b) := move InvalidHandle b in Ok (mk_psys (upd (upd (y_objs s) d a) k b) (y_kern s), [])
    | _, _ => UB
    end
  | PAssign d k =>
    match nth_error (y_objs s) d, nth_error (y_objs s) k with
    | Some a, Some b =>
      if Nat.eqb d k then Ok (s, []) else
      let! (a, b) := move a b in Ok (mk_psys (upd (upd (y_objs s) d a) k b) (y_kern s), [])
    | _, _ => UB
    end
  | PRun i pid =>
    match nth_error (y_objs s) i with
    | Some h =>
      let '(h, _) := run_hdl h (mk_sout (match pid with Some _ => true | None => false end) [] pid None false) in
      match pid with
      | Some q =>
        if (q <=? 0) || match kfind q (y_kern s) with Some _ => true | None => false end then UB else
        Ok (mk_psys (upd (y_objs s) i h) ((q, PRunning) :: y_kern s), [OStart q])
      | None => Ok (mk_psys (upd (y_objs s) i h) (y_kern s), [])
      end
    | None => UB
    end
  | PAlive i =>
    match nth_error (y_objs s) i with
    | Some h => let '(b, c, k) := isAlive h (y_kern s) in Ok (mk_psys (y_objs s) k, [OAnswer h b c])
    | None => UB
    end
  | PDtor i =>
    match nth_error (y_objs s) i with
    | Some h => Ok (mk_psys (upd (y_objs s) i (pclose h)) (y_kern s), [])
    | None => UB
    end
  | PEnd pid st =>
    match kfind pid (y_kern s), st with
    | Some PRunning, PExited _ | Some PRunning, PKilled => Ok (mk_psys (y_objs s) ((pid, st) :: kdel pid (y_kern s)), [OEnd pid st])
    | _, _ => UB
    end
  end.
Fixpoint psteps (s : psys) (os : list pop) : res (psys * list obs) :=
  match os with
  | [] => Ok (s, [])
  | o :: r => let! (s, tr) := pstep s o in let! (s, tr') := psteps s r in Ok (s, tr ++ tr')
  end.

(** ** the Windows branch: the command line *)

(** process.hpp:97-109 escape *)
Fixpoint escape (s : list Z) : list Z :=
  match s with
  | [] => []
  | c :: r => if c =? 34 then 92 :: 34 :: escape r else c :: escape r
  end.
(** process.hpp:123-129 cmdLine (without the final NUL): the program between quotes, then each argument after a space and between quotes *)
Definition cmdLine (exe : list Z) (arg : list (list Z)) : list Z :=
  34 :: exe ++ [34] ++ concat (map (fun a => 32 :: 34 :: escape a ++ [34]) arg).
