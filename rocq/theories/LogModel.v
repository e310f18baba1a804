(** Model of include/cybozu/log.hpp: class Logger and the functions around it (one thread: the code says it is not thread safe).
    The text of the current time (cybozu::Time, C47/C48) and the results of fopen, fclose, fprintf, fflush and vasprintf are inputs.
    Not modelled: the Windows branch, the bytes that stdio still buffers. *)
Require Import Verif.Common.

(** a FILE pointer: stdout, stderr, one that belongs to the user, or the result of the logger's own fopen number n *)
Inductive file := FStdout | FStderr | FUser (n : Z) | FOwn (n : Z).
Inductive lev :=
| LOpened (n : Z)                     (* fopen succeeded *)
| LClosed (f : file)                  (* fclose was called *)
| LWrite (f : file) (line : list Z)   (* fprintf *)
| LSyslog (pri : Z) (text : list Z)   (* syslog *)
| LComplain.                          (* a message about a failing call on stderr *)
(** log.hpp:26-31 the members; l_open is the set of own files that are open *)
Record logger := mk_logger { l_pri : Z; l_fp : option file; l_doClose : bool; l_syslog : bool; l_open : list Z }.
(** log.hpp:17-22 LogPriority *)
Definition LogDebug := 0. Definition LogInfo := 1. Definition LogWarning := 2. Definition LogError := 3.
(** log.hpp:33-40 *)
Definition Logger0 : logger := mk_logger LogInfo (Some FStderr) false true [].

Definition is_open (g : logger) (f : file) : bool :=
  match f with FOwn n => existsb (Z.eqb n) (l_open g) | _ => true end.
(** the text up to the first NUL (c_str) *)
Fixpoint cstr (s : list Z) : list Z := match s with [] => [] | c :: r => if c =? 0 then [] else c :: cstr r end.

(** log.hpp:59-66 the level for syslog: LOG_CRIT = 2, LOG_WARNING = 4, LOG_INFO = 6, LOG_DEBUG = 7 *)
Definition syslog_pri (p : Z) : Z :=
  if p =? LogDebug then 7 else if p =? LogInfo then 6 else if p =? LogWarning then 4 else 2.
(** log.hpp:45-70 put(priority, str); printed and flushed: the results of fprintf and fflush. Using a FILE that was closed is UB. *)
Definition put (g : logger) (pri : Z) (time str : list Z) (printed flushed : bool) : res (list lev) :=
  if pri <? l_pri g then Ok [] else
  let! a :=
    match l_fp g with
    | Some f =>
      if is_open g f then
        Ok ([LWrite f (if printed then time ++ [32] ++ cstr str ++ [10] else [])]
            ++ (if printed then [] else [LComplain]) ++ (if flushed then [] else [LComplain]))
      else UB
    | None => Ok []
    end in
  Ok (a ++ if l_syslog g then [LSyslog (syslog_pri pri) (cstr str ++ [10])] else []).
(** log.hpp:71-77 put(priority, format, args) inside PutLog (log.hpp:195-206): text is what vasprintf makes, None if it fails; the
    exception is caught and a message goes to stderr *)
Definition PutLog (g : logger) (pri : Z) (time : list Z) (text : option (list Z)) (printed flushed : bool) : res (list lev) :=
  if pri <? l_pri g then Ok [] else
  match text with
  | Some str => put g pri time str printed flushed
  | None => Ok [LComplain]
  end.
(** log.hpp:121-131 closeFile; closed: the result of fclose, which releases the FILE in any case *)
Definition closeFile (g : logger) (closed : bool) : res (bool * logger * list lev) :=
  match l_fp g with
  | None => Ok (true, g, [])
  | Some f =>
    if negb (l_doClose g) then Ok (true, g, []) else
    match f with
    | FStdout | FStderr => Ok (true, mk_logger (l_pri g) None (l_doClose g) (l_syslog g) (l_open g), [])
    | _ =>
      if is_open g f then
        let o := match f with FOwn n => filter (fun x => negb (x =? n)) (l_open g) | _ => l_open g end in
        Ok (closed, mk_logger (l_pri g) None (l_doClose g) (l_syslog g) o, [LClosed f])
      else UB
    end
  end.
(** log.hpp:88-101 openFile; opened: the number of the new FILE, or None if fopen fails.  The first component: false if it throws *)
Definition openFile (g : logger) (opened : option Z) (closed : bool) : res (bool * logger * list lev) :=
  match opened with
  | None => Ok (false, g, [])
  | Some n =>
    let g := mk_logger (l_pri g) (l_fp g) (l_doClose g) (l_syslog g) (n :: l_open g) in
    let! (ok, g, tr) := closeFile g closed in
    if negb ok then Ok (false, g, LOpened n :: tr) else
    Ok (true, mk_logger (l_pri g) (Some (FOwn n)) true false (l_open g), LOpened n :: tr)
  end.
(** log.hpp:107-113 set *)
Definition set (g : logger) (fp : option file) (closed : bool) : res (bool * logger * list lev) :=
  let! (ok, g, tr) := closeFile g closed in
  if negb ok then Ok (false, g, tr) else
  Ok (true, mk_logger (l_pri g) fp false false (l_open g), tr).

(** the calls a program makes, with the results of the C library *)
Inductive lop :=
| OpPut (pri : Z) (time str : list Z) (printed flushed : bool)             (* class Log: log.hpp:216-235 *)
| OpPutLog (pri : Z) (time : list Z) (text : option (list Z)) (printed flushed : bool)
| OpOpen (opened : option Z) (closed : bool)                               (* OpenLogFile log.hpp:149-152 *)
| OpSet (fp : option file) (closed : bool)                                 (* SetLogFILE log.hpp:160-163 *)
| OpSyslog (b : bool)                                                      (* useSyslog log.hpp:168-171 *)
| OpPri (p : Z)                                                            (* SetLogPriority log.hpp:176-179 *)
| OpClose (closed : bool)                                                  (* Logger::closeFile *)
.

Definition lstep (g : logger) (o : lop) : res (logger * list lev) :=
  match o with
  | OpPut p t s a b => let! tr := put g p t s a b in Ok (g, tr)
  | OpPutLog p t s a b => let! tr := PutLog g p t s a b in Ok (g, tr)
  | OpOpen f c => let! (_, g, tr) := openFile g f c in Ok (g, tr)
  | OpSet f c => let! (_, g, tr) := set g f c in Ok (g, tr)
  | OpSyslog b => Ok (mk_logger (l_pri g) (l_fp g) (l_doClose g) b (l_open g), [])
  | OpPri p => Ok (mk_logger p (l_fp g) (l_doClose g) (l_syslog g) (l_open g), [])
  | OpClose c => let! (_, g, tr) := closeFile g c in Ok (g, tr)
  end.
Fixpoint lsteps (g : logger) (os : list lop) : res (logger * list lev) :=
  match os with
  | [] => Ok (g, [])
  | o :: r => let! (g, tr) := lstep g o in let! (g, tr') := lsteps g r in Ok (g, tr ++ tr')
  end.
(** the whole program: log.hpp:79-83 the logger is constructed at the first call; ~Logger (41-44) at the exit *)
Definition program (os : list lop) (closed : bool) : res (logger * list lev) :=
  let! (g, tr) := lsteps Logger0 os in let! (_, g, tr') := closeFile g closed in Ok (g, tr ++ tr').
