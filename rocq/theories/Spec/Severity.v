(** Severities, most severe first. *)
From Coq Require Import List String.
From Verif Require Import Model.DebugLogger.

Inductive as_severe : LogLevel -> LogLevel -> Prop :=
| as_refl : forall l, as_severe l l
| as_fatal : forall l, as_severe FATAL l
| as_error_warn : as_severe ERROR WARN
| as_error_info : as_severe ERROR INFO
| as_error_debug : as_severe ERROR DEBUG
| as_warn_info : as_severe WARN INFO
| as_warn_debug : as_severe WARN DEBUG
| as_info_debug : as_severe INFO DEBUG.

(** The stream a message belongs to. *)
Definition stream_of (l : LogLevel) : stream :=
  match l with FATAL | ERROR | WARN => Cerr | INFO | DEBUG => Cout end.

(** A sequence of messages at one verbosity. *)
Definition say (c : console) (ms : list (LogLevel * string)) : console :=
  fold_left (fun c x => DebugLog c (fst x) (snd x)) ms c.
