(** Model of include/cybozu/quit_signal_handler.hpp on POSIX: QuitSignalHandler<App>.  A run of the process is a list of events: the
    steps of the constructors the main program runs, signals, returns of the signal handler, and the end of an App's life.  App::quit is
    the user's: here a call is recorded. *)
Require Import Verif.Common.

Inductive signal := SIGINT | SIGQUIT | SIGABRT | SIGTERM.
Scheme Equality for signal.
Definition app := nat.

(** the instructions of the constructor (quit_signal_handler.hpp:41-60) *)
Inductive instr :=
| ISetApp (a : app)             (* 43: app_ = &app *)
| ISigaction (s : signal).      (* 51-54: install ctrlHandler for s *)
(** 43, 51-54: in this order; the && stops at the first failure, but then the process exits *)
Definition ctor (a : app) : list instr := [ISetApp a; ISigaction SIGINT; ISigaction SIGQUIT; ISigaction SIGABRT; ISigaction SIGTERM].
(** 49: sigfillset: every signal is blocked while the handler runs *)
Definition mask_all : bool := true.

Inductive status := Running | Killed (s : signal) | Exited (code : Z).
Record proc := mk_proc {
  p_app : option app;            (* 26: app_, a static member, null at first *)
  p_installed : list signal;     (* signals that have ctrlHandler as their action *)
  p_todo : list instr;           (* rest of the running constructor *)
  p_depth : nat;                 (* handlers that have not returned *)
  p_pending : list signal;       (* blocked signals *)
  p_quits : list app;            (* calls of quit so far, latest first *)
  p_dead : list app;             (* Apps that were destroyed *)
  p_status : status
}.
Definition init : proc := mk_proc None [] [] 0 [] [] [] Running.

(** 34-38 ctrlHandler: app_->quit() *)
Definition call_handler (p : proc) : res proc :=
  match p_app p with
  | None => UB                                                     (* 36: null pointer *)
  | Some a =>
    if existsb (Nat.eqb a) (p_dead p) then UB                      (* the object is gone *)
    else Ok (mk_proc (p_app p) (p_installed p) (p_todo p) (S (p_depth p)) (p_pending p) (a :: p_quits p) (p_dead p) (p_status p))
  end.
(** a signal arrives: blocked while a handler runs (a pending one is kept once), else its action is taken *)
Definition deliver (s : signal) (p : proc) : res proc :=
  if mask_all && (0 <? p_depth p)%nat then
    Ok (mk_proc (p_app p) (p_installed p) (p_todo p) (p_depth p) (if existsb (signal_beq s) (p_pending p) then p_pending p else p_pending p ++ [s]) (p_quits p) (p_dead p) (p_status p))
  else if existsb (signal_beq s) (p_installed p) then call_handler p
  else Ok (mk_proc (p_app p) (p_installed p) (p_todo p) (p_depth p) (p_pending p) (p_quits p) (p_dead p) (Killed s)).

Inductive event :=
| EConstruct (a : app)          (* the main program starts QuitSignalHandler(a) *)
| EStep (ok : bool)             (* the next instruction of the constructor; ok: sigaction returned 0 *)
| ESignal (s : signal)
| EReturn                       (* the handler returns; the first pending signal is delivered *)
| EDestroy (a : app).           (* the App object a is destroyed *)

Definition step (e : event) (p : proc) : res proc :=
  match p_status p with
  | Running =>
    match e with
    | EConstruct a =>
      match p_todo p, p_depth p with
      | [], O => Ok (mk_proc (p_app p) (p_installed p) (ctor a) 0 (p_pending p) (p_quits p) (p_dead p) Running)
      | _, _ => Ok p                                                (* the main program is busy: no such event *)
      end
    | EStep ok =>
      match p_todo p, p_depth p with
      | ISetApp a :: r, O => Ok (mk_proc (Some a) (p_installed p) r 0 (p_pending p) (p_quits p) (p_dead p) Running)
      | ISigaction s :: r, O =>
        if ok then Ok (mk_proc (p_app p) (s :: p_installed p) r 0 (p_pending p) (p_quits p) (p_dead p) Running)
        else Ok (mk_proc (p_app p) (p_installed p) [] 0 (p_pending p) (p_quits p) (p_dead p) (Exited 1))   (* 56-59 *)
      | _, _ => Ok p
      end
    | ESignal s => deliver s p
    | EReturn =>
      match p_depth p with
      | O => Ok p
      | S d =>
        let p := mk_proc (p_app p) (p_installed p) (p_todo p) d (p_pending p) (p_quits p) (p_dead p) Running in
        match d, p_pending p with
        | O, s :: r => deliver s (mk_proc (p_app p) (p_installed p) (p_todo p) d r (p_quits p) (p_dead p) Running)
        | _, _ => Ok p
        end
      end
    | EDestroy a =>
      match p_depth p with
      | O => Ok (mk_proc (p_app p) (p_installed p) (p_todo p) (p_depth p) (p_pending p) (p_quits p) (a :: p_dead p) Running)
      | _ => Ok p
      end
    end
  | _ => Ok p
  end.
Fixpoint run (l : list event) (p : proc) : res proc :=
  match l with
  | [] => Ok p
  | e :: r => let! p := step e p in run r p
  end.
