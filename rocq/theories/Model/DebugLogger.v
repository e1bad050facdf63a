(** /repo/src/infrastructure/debug_logger.hpp, debug_logger.cpp and
    sim/sim_debug_logger.cpp (the console version).  The console is what has
    been written to the two output streams, in order. *)
From Coq Require Import List Arith Bool String.
From Verif Require Import Base.Res.
Import ListNotations.

(** debug_logger.hpp 23-30 *)
Inductive LogLevel : Type := FATAL | ERROR | WARN | INFO | DEBUG.

(** The underlying integers *)
Definition lev (l : LogLevel) : nat :=
  match l with FATAL => 0 | ERROR => 1 | WARN => 2 | INFO => 3 | DEBUG => 4 end.

(** static_cast<LogLevel>(unsigned): only the named values are modelled; the
    others index [m_log_level_names] out of range. *)
Definition of_lev (n : nat) : res LogLevel :=
  match n with 0 => OK FATAL | 1 => OK ERROR | 2 => OK WARN | 3 => OK INFO | 4 => OK DEBUG | _ => UB end.

(** debug_logger.hpp 77 *)
Definition level_name (l : LogLevel) : string :=
  match l with FATAL => "FATAL" | ERROR => "ERROR" | WARN => "WARN " | INFO => "INFO " | DEBUG => "DEBUG" end.

Inductive stream : Type := Cout | Cerr.

Record console : Type := mkConsole { d_level : LogLevel; d_out : list (stream * string) }.

Definition put (c : console) (s : stream) (l : LogLevel) (m : string) : console :=
  mkConsole (d_level c) (d_out c ++ [(s, ("[" ++ level_name l ++ "]: " ++ m)%string)]).

(** sim_debug_logger.cpp 25-37 *)
Definition SetLogLevel (c : console) (level : LogLevel) : console :=
  let c := if (lev (d_level c) <=? lev INFO) || (lev level <=? lev INFO)
           then put c Cout INFO ("Log level set to: " ++ level_name level)%string else c in
  mkConsole level (d_out c).

(** sim_debug_logger.cpp 39-53 *)
Definition SetLogLevel_u (c : console) (level : nat) : res console :=
  let* l := of_lev level in OK (SetLogLevel c l).

(** sim_debug_logger.cpp 55-76 *)
Definition DebugLog (c : console) (level : LogLevel) (message : string) : console :=
  if lev level <=? lev (d_level c) then
    match level with
    | DEBUG | INFO => put c Cout level message
    | WARN | ERROR | FATAL => put c Cerr level message
    end
  else c.
