(** /repo/src/infrastructure/data_logger.hpp and data_logger.cpp.  The output
    file is the name it was opened under and its lines; opening it always
    succeeds and nothing else writes to it.  The 32-bit row counter does not
    wrap around. *)
From Coq Require Import Reals List Arith Bool String.
From Verif Require Import Base.RDec.
Import ListNotations.
Open Scope R_scope.

(** data_logger.hpp 83-91 *)
Record logger : Type := mkLogger {
  l_initialized : bool;
  l_header : string;
  l_file : option (string * list string);
  l_on : bool;
  l_dir : string;
  l_name : string;
  l_rate : R;
  l_time_init : R;
  l_count : nat }.

(** data_logger.cpp 21-34 with the member initialisers *)
Definition logger_init (dir name : string) (rate : R) : logger :=
  mkLogger false "" None false dir name rate 0 0.

Definition write_line (f : option (string * list string)) (m : string) : option (string * list string) :=
  match f with Some (n, ls) => Some (n, ls ++ [m]) | None => None end.

(** 36-47 *)
Definition Log (l : logger) (message : string) : logger :=
  if l_on l then
    let l := if l_initialized l then l
             else mkLogger true (l_header l) (Some ((l_dir l ++ l_name l)%string, [l_header l]))
                    (l_on l) (l_dir l) (l_name l) (l_rate l) (l_time_init l) (l_count l) in
    mkLogger (l_initialized l) (l_header l) (write_line (l_file l) message) (l_on l) (l_dir l)
      (l_name l) (l_rate l) (l_time_init l) (S (l_count l))
  else l.

(** 49-63 *)
Definition RateLimitedLog (l : logger) (message : string) (time : R) : logger :=
  if l_on l then
    if negb (Reqb (l_time_init l) 0) then
      let log_count := INR (l_count l) in
      let max_count := l_rate l * (time - l_time_init l) in
      if Reqb (l_rate l) 0 || Rltb log_count max_count then Log l message else l
    else
      Log (mkLogger (l_initialized l) (l_header l) (l_file l) (l_on l) (l_dir l) (l_name l)
             (l_rate l) time (l_count l)) message
  else l.

(** 65-68 *)
Definition EnableLogging (l : logger) : logger :=
  mkLogger (l_initialized l) (l_header l) (l_file l) true (l_dir l) (l_name l) (l_rate l)
    (l_time_init l) (l_count l).
(** 71-74 *)
Definition SetOutputDirectory (l : logger) (d : string) : logger :=
  mkLogger (l_initialized l) (l_header l) (l_file l) (l_on l) d (l_name l) (l_rate l)
    (l_time_init l) (l_count l).
(** 77-80 *)
Definition SetOutputFileName (l : logger) (n : string) : logger :=
  mkLogger (l_initialized l) (l_header l) (l_file l) (l_on l) (l_dir l) n (l_rate l)
    (l_time_init l) (l_count l).
(** 83-86 *)
Definition DefineHeader (l : logger) (h : string) : logger :=
  mkLogger (l_initialized l) h (l_file l) (l_on l) (l_dir l) (l_name l) (l_rate l)
    (l_time_init l) (l_count l).
(** 88-91 *)
Definition SetLogRate (l : logger) (r : R) : logger :=
  mkLogger (l_initialized l) (l_header l) (l_file l) (l_on l) (l_dir l) (l_name l) r
    (l_time_init l) (l_count l).

(** One call of a public member function. *)
Inductive lop : Type :=
| LLog (m : string)
| LRate (m : string) (t : R)
| LEnable
| LDir (d : string)
| LName (n : string)
| LHeader (h : string)
| LSetRate (r : R).

Definition lstep (l : logger) (o : lop) : logger :=
  match o with
  | LLog m => Log l m
  | LRate m t => RateLimitedLog l m t
  | LEnable => EnableLogging l
  | LDir d => SetOutputDirectory l d
  | LName n => SetOutputFileName l n
  | LHeader h => DefineHeader l h
  | LSetRate r => SetLogRate l r
  end.

Definition lrun (l : logger) (os : list lop) : logger := fold_left lstep os l.
