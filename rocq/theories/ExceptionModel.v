(** Model of include/cybozu/exception.hpp (Exception, ErrorNo, ConvertErrorNoToString) and of include/cybozu/stacktrace.hpp (StackTrace,
    Demangle) on POSIX.  Strings are byte lists.  The frames backtrace() captures, the texts of backtrace_symbols(), the answers of
    __cxa_demangle, of strerror_r, of the BFD lookup and of the allocator are inputs. *)
Require Import Verif.Common Verif.Text.

(** a C string in memory: the bytes before the first NUL *)
Fixpoint cstr (s : list Z) : list Z :=
  match s with
  | [] => []
  | c :: r => if c =? 0 then [] else c :: cstr r
  end.
(** printf's %u, %llx: the digits of x in this base; at most fuel of them (a 64-bit value has at most 20) *)
Fixpoint num_text (base : Z) (ch : Z -> Z) (fuel : nat) (x : Z) : list Z :=
  match fuel with
  | O => []
  | S f => if x <? base then [ch x] else num_text base ch f (x / base) ++ [ch (x mod base)]
  end.
(** %llx: lower case hexadecimal *)
Definition printf_llx (x : Z) : list Z := num_text 16 (fun d => if d <? 10 then 48 + d else 87 + d) 20 x.
(** %d *)
Definition printf_d (x : Z) : list Z :=
  if x <? 0 then 45 :: num_text 10 (fun d => 48 + d) 20 (- x) else num_text 10 (fun d => 48 + d) 20 x.
(** snprintf(buf, size, ...): what the buffer holds as a C string *)
Definition snprintf (size : Z) (s : list Z) : list Z := if size <=? 0 then [] else firstn (Z.to_nat (size - 1)) s.

(** ** stacktrace.hpp *)
(** the compile-time switches CYBOZU_STACKTRACE_WITH_BFD_GPL and CYBOZU_STACKTRACE_RESOLVE_SYMBOL (on unless NDEBUG: 31-33) *)
Record config := mk_config { with_bfd : bool; resolve : bool }.
(** stacktrace.hpp:84-89 CYBOZU_STACKTRACE_ONELINE and delim *)
Definition oneline (c : config) : bool := negb (with_bfd c || resolve c).
Definition delim (c : config) : Z := if oneline c then 32 else 10.

(** stacktrace.hpp:91-100 addrToHex; an address is a 64-bit number *)
Definition addrToHex (c : config) (addr : Z) : list Z :=
  if oneline c then snprintf 32 (str "0x" ++ printf_llx addr)
  else snprintf 32 (str "[0x" ++ printf_llx addr ++ str "]").

(** stacktrace.hpp:105-117 Demangle: the text put in out; cxa is __cxa_demangle, None when status is not 0 *)
Definition Demangle (cxa : list Z -> option (list Z)) (func : list Z) : list Z :=
  match cxa (cstr func) with
  | Some d => d
  | None => func
  end.

(** stacktrace.hpp:137, 177-179 the constructor: backtrace stores at most 32 of the frames *)
Definition StackTrace_new (frames : list Z) : list Z := firstn 32 frames.

(** std::string::find(char, pos) *)
Fixpoint find_ch (ch : Z) (s : list Z) (i : nat) : option nat :=
  match s with
  | [] => None
  | x :: r => if x =? ch then Some i else find_ch ch r (S i)
  end.
Definition find_from (ch : Z) (s : list Z) (pos : nat) : option nat := find_ch ch (skipn pos s) pos.

(** stacktrace.hpp:238-269: the text for one entry of backtrace_symbols; fn is the function name BFD found (empty if none) *)
Definition symbol_text (cxa : list Z -> option (list Z)) (fn sym : list Z) : list Z :=
  let s := sym ++ [0] in                                               (* 238-239 *)
  let plain := (match fn with [] => [] | _ => fn ++ [32] end) ++ sym ++ [32] in   (* 262-269 *)
  match find_from 40 s 0 with                                          (* 240: '(' *)
  | None => plain
  | Some p =>
    match find_from 43 s (p + 1) with                                  (* 243: '+' *)
    | None => plain
    | Some q =>
      let s := upd s p 0 in                                            (* 245 *)
      let s := upd s q 0 in                                            (* 246 *)
      let obj := cstr s in
      let func := cstr (skipn (p + 1) s) in
      let addr := cstr (skipn (q + 1) s) in                            (* 247 *)
      let fn := match fn with [] => Demangle cxa func | _ => fn end in (* 248-250 *)
      obj ++ [40] ++ fn ++ [43] ++ addr ++ [32]                        (* 255-260 *)
    end
  end.

(** what Bfd::getInfo gives for an address: file, function, line *)
Definition bfd_info := Z -> option (list Z * list Z * Z).

(** stacktrace.hpp:222-274: the text for one frame; symtext is symbol[i], None if backtrace_symbols returned NULL *)
Definition frame_text (c : config) (info : bfd_info) (cxa : list Z -> option (list Z)) (symtext : option (list Z)) (addr : Z) : list Z :=
  let '(pre, fn) :=
    if with_bfd c then
      match info addr with
      | Some (file, func, line) => (file ++ [58] ++ printf_d line ++ [32], Demangle cxa func)   (* 227-233 *)
      | None => ([], [])
      end
    else ([], []) in
  pre ++
  (if resolve c then
     match symtext with
     | Some sym => symbol_text cxa fn sym
     | None => addrToHex c addr
     end
   else addrToHex c addr).

(** stacktrace.hpp:221-276 the loop: delim after every frame but the last; the symbols come with the addresses *)
Fixpoint trace_loop (c : config) (info : bfd_info) (cxa : list Z -> option (list Z)) (n i : nat) (frames : list (Z * option (list Z))) (out : list Z) : list Z :=
  match frames with
  | [] => out
  | (addr, sym) :: r =>
    let out := out ++ frame_text c info cxa sym addr in
    let out := if (i <? n - 1)%nat then out ++ [delim c] else out in
    trace_loop c info cxa n (S i) r out
  end.
(** stacktrace.hpp:185-279 StackTrace::toString *)
Definition trace_toString (c : config) (info : bfd_info) (cxa : list Z -> option (list Z)) (frames : list (Z * option (list Z))) : list Z :=
  match frames with
  | [] => []
  | _ => trace_loop c info cxa (length frames) 0 frames []
  end.

(** ** exception.hpp *)
(** exception.hpp:119-123 class Exception; without CYBOZU_EXCEPTION_WITH_STACKTRACE stackTrace_ stays empty *)
Record exn := mk_exn { e_str : list Z; e_trace : list Z }.

(** exception.hpp:125-133: trace is cybozu::StackTrace().toString() (empty if the switch is off) *)
Definition Exception_new (name : list Z) (enableStackTrace : bool) (trace : list Z) : exn :=
  mk_exn name (if enableStackTrace then trace else []).

(** exception.hpp:156-161 operator<<(const char star) *)
Definition append_c (e : exn) (s : list Z) : exn := mk_exn (e_str e ++ [58] ++ cstr s) (e_trace e).
(** exception.hpp:162-165, 172-178: a std::string, and the text an ostringstream makes of any other value *)
Definition append_str (e : exn) (s : list Z) : exn := append_c e s.

(** the two or three appends of 142-147, in order; oks: whether the allocation of each append succeeds.  A failing append throws and
    leaves the string as it was *)
Fixpoint appends (s : list Z) (parts : list (list Z)) (oks : list bool) : list Z :=
  match parts with
  | [] => s
  | p :: r =>
    match oks with
    | false :: _ => s                                       (* bad_alloc, caught at 150 *)
    | true :: oks' => appends (s ++ p) r oks'
    | [] => appends (s ++ p) r []
    end
  end.
(** exception.hpp:136-155 toString: the new object and the text it returns *)
Definition exn_toString (c : config) (oks : list bool) (e : exn) : exn * list Z :=
  let s :=
    match e_trace e with
    | [] => e_str e
    | t =>
      if oneline c then appends (e_str e) [str "
<<<STACKTRACE>>> "; t] oks
      else appends (e_str e) [str "
<<<STACKTRACE
"; t; str "
>>>STACKTRACE"] oks
    end in
  (mk_exn s [], s).
(** exception.hpp:135 what(): a C string *)
Definition what (c : config) (oks : list bool) (e : exn) : exn * list Z :=
  let '(e, s) := exn_toString c oks e in (e, cstr s).

(** exception.hpp:94-117 ConvertErrorNoToString on POSIX: gnu says which strerror_r is there; msg is the text it gives, None if the XSI
    version fails *)
Definition ConvertErrorNoToString (gnu : bool) (msg : option (list Z)) (gnu_msg : list Z) (err : Z) : list Z :=
  let ret := if gnu then cstr gnu_msg else match msg with Some m => cstr m | None => str "err" end in
  ret ++ snprintf 64 (str "(" ++ printf_d err ++ str ")").
(** exception.hpp:181-203, 209, 240 ErrorNo(err).toString() *)
Definition ErrorNo_toString := ConvertErrorNoToString.

(** exception.hpp:70-84 wstr2str (the Windows branch): the UTF-16 units of a wide string.  %04x pads with zeros to four digits *)
Definition printf_04x (x : Z) : list Z :=
  let d := printf_llx x in repeat 48 (4 - length d) ++ d.
Fixpoint wstr2str (w : list Z) : list Z :=
  match w with
  | [] => []
  | c :: r => (if c <? 0x80 then [c] else snprintf 16 (str "\u" ++ printf_04x c)) ++ wstr2str r
  end.
